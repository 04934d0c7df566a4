(** Gaussian mixtures: the half-integer Matern correlations as limits of integrals of Gaussians. *)
From Coq Require Import Reals Lra Lia.
From Coquelicot Require Import Coquelicot.
Local Open Scope R_scope.

(** ** The error function (unnormalised). *)
Definition gaussdens (v : R) : R := exp (- (v * v)).
Definition H_ (x : R) : R := RInt gaussdens 0 x.

Lemma gaussdens_cont x : continuous gaussdens x.
Proof.
  apply (ex_derive_continuous gaussdens). unfold gaussdens. auto_derive; auto.
Qed.
Lemma gaussdens_pos v : 0 < gaussdens v.
Proof. apply exp_pos. Qed.
Lemma gaussdens_ex a b : ex_RInt gaussdens a b.
Proof. apply (ex_RInt_continuous (V := R_CompleteNormedModule)). intros; apply gaussdens_cont. Qed.
Lemma H_derive x : is_derive H_ x (gaussdens x).
Proof.
  apply (is_derive_RInt gaussdens H_ 0 x); [|apply gaussdens_cont].
  apply filter_forall. intros y. apply (RInt_correct (V := R_CompleteNormedModule) gaussdens 0 y), gaussdens_ex.
Qed.
Lemma H_odd x : H_ (- x) = - H_ x.
Proof.
  unfold H_.
  assert (I : is_RInt (fun y => opp (gaussdens (- y))) 0 x (RInt gaussdens 0 (- x))).
  { replace 0 with (- 0) at 2 by ring. apply (is_RInt_comp_opp gaussdens). replace (-0) with 0 by ring.
    apply (RInt_correct (V := R_CompleteNormedModule) gaussdens 0 (- x)), gaussdens_ex. }
  pose proof (is_RInt_unique (V := R_CompleteNormedModule) _ _ _ _ I) as I'. rewrite <- I'.
  assert (E : forall y, opp (gaussdens (- y)) = opp (gaussdens y)).
  { intros y. unfold gaussdens. do 2 f_equal. ring. }
  rewrite (RInt_ext _ (fun y => opp (gaussdens y))) by (intros; apply E).
  rewrite (RInt_opp (V := R_CompleteNormedModule) gaussdens) by apply gaussdens_ex. reflexivity.
Qed.
Lemma H_incr x y : x <= y -> H_ x <= H_ y.
Proof.
  intros L. unfold H_. rewrite <- (RInt_Chasles gaussdens 0 x y) by apply gaussdens_ex.
  assert (0 <= RInt gaussdens x y). { apply RInt_ge_0; auto; [apply gaussdens_ex|]. intros; left; apply gaussdens_pos. }
  change (RInt gaussdens 0 x <= RInt gaussdens 0 x + RInt gaussdens x y). lra.
Qed.

Lemma H_bound x : H_ x <= exp 1.
Proof.
  destruct (Rle_lt_dec 0 x) as [P|N].
  - assert (I : is_RInt (fun v => exp (1 - v)) 0 x (minus (- exp (1 - x)) (- exp (1 - 0)))).
    { apply (is_RInt_derive (fun v => - exp (1 - v)) (fun v => exp (1 - v))).
      - intros v _. auto_derive; auto. unfold Rminus. ring.
      - intros v _. apply (ex_derive_continuous (fun v => exp (1 - v))). auto_derive; auto. }
    assert (L : H_ x <= RInt (fun v => exp (1 - v)) 0 x).
    { apply RInt_le; auto; [apply gaussdens_ex|eexists; exact I|].
      intros v _. unfold gaussdens. destruct (Rle_lt_dec (- (v * v)) (1 - v)) as [G|G].
      - destruct G as [G|G]; [left; apply exp_increasing; auto|rewrite G; lra].
      - nra. }
    rewrite (is_RInt_unique (V := R_CompleteNormedModule) _ _ _ _ I) in L. change (H_ x <= - exp (1 - x) - - exp (1 - 0)) in L.
    replace (1 - 0) with 1 in L by ring. pose proof (exp_pos (1 - x)). lra.
  - assert (H_ x <= H_ 0) by (apply H_incr; lra). assert (Z : H_ 0 = 0) by (apply (RInt_point (V := R_CompleteNormedModule) 0 gaussdens)).
    pose proof (exp_pos 1). lra.
Qed.

Lemma H_limit : exists L, 0 < L /\ is_lim H_ p_infty L /\ is_lim H_ m_infty (- L).
Proof.
  destruct (ex_finite_lim_seq_incr (fun n => H_ (INR n)) (exp 1)) as [L HL].
  - intros n. apply H_incr. rewrite S_INR. lra.
  - intros n. apply H_bound.
  - assert (UP : forall n, H_ (INR n) <= L).
    { intros n. apply (is_lim_seq_incr_compare (fun n => H_ (INR n)) L HL). intros k. apply H_incr. rewrite S_INR. lra. }
    assert (UPX : forall x, H_ x <= L).
    { intros x. destruct (nfloor_ex (Rmax 0 x) (Rmax_l 0 x)) as [n Hn].
      apply (Rle_trans _ (H_ (INR (S n)))); [|apply UP]. apply H_incr. rewrite S_INR. pose proof (Rmax_r 0 x). lra. }
    assert (P : 0 < L).
    { apply (Rlt_le_trans _ (H_ 1)); [|apply UPX]. apply RInt_gt_0; try lra.
      - intros; apply gaussdens_pos.
      - intros; apply gaussdens_cont. }
    assert (LP : is_lim H_ p_infty L).
    { apply is_lim_spec. intros eps. apply is_lim_seq_spec in HL. destruct (HL eps) as [N HN].
      exists (INR N). intros x Hx. specialize (HN N (Nat.le_refl N)). cbn beta in HN.
      pose proof (UPX x). assert (H_ (INR N) <= H_ x) by (apply H_incr; lra).
      apply Rabs_def2 in HN. apply Rabs_def1; lra. }
    exists L. split; auto. split; auto.
    apply (is_lim_ext (fun x => - H_ (- x))).
    + intros x. rewrite H_odd. ring.
    + apply (is_lim_opp (fun x => H_ (- x)) m_infty L).
      apply (is_lim_comp H_ (fun x => - x) m_infty L p_infty); auto.
      * apply (is_lim_opp (fun x => x) m_infty m_infty). apply is_lim_id.
      * exists 0. intros y Hy. discriminate.
Qed.

(** ** Mixture integrands *)
Definition mixd (r u : R) : R := exp (- (u * u) - (r / u) * (r / u)).
Definition Phi (r u : R) : R := / 2 * (exp (- (2 * r)) * H_ (u - r / u) + exp (2 * r) * H_ (u + r / u)).
Definition Psi (r u : R) : R := / 2 * (exp (- (2 * r)) * H_ (u - r / u) - exp (2 * r) * H_ (u + r / u)).

Lemma mix_minus r u : u <> 0 -> exp (- (2 * r)) * gaussdens (u - r / u) = mixd r u.
Proof. intros U. unfold gaussdens, mixd. rewrite <- exp_plus. f_equal. field. auto. Qed.
Lemma mix_plus r u : u <> 0 -> exp (2 * r) * gaussdens (u + r / u) = mixd r u.
Proof. intros U. unfold gaussdens, mixd. rewrite <- exp_plus. f_equal. field. auto. Qed.

Lemma HD x : Derive (fun y => H_ y) x = gaussdens x.
Proof. apply is_derive_unique, H_derive. Qed.
Lemma HE x : ex_derive (fun y => H_ y) x.
Proof. eexists. apply H_derive. Qed.

Lemma Phi_derive r u : 0 < u -> is_derive (Phi r) u (mixd r u).
Proof.
  intros U. unfold Phi. auto_derive.
  - repeat split; try apply HE; lra.
  - rewrite !HD. transitivity (/ 2 * ((exp (- (2 * r)) * gaussdens (u - r / u)) * (1 + r / (u * u)) + (exp (2 * r) * gaussdens (u + r / u)) * (1 - r / (u * u)))).
    + unfold Rdiv, Rminus. field. lra.
    + rewrite mix_minus, mix_plus by lra. field. lra.
Qed.
Lemma Psi_derive r u : 0 < u -> is_derive (Psi r) u (r / (u * u) * mixd r u).
Proof.
  intros U. unfold Psi. auto_derive.
  - repeat split; try apply HE; lra.
  - rewrite !HD. transitivity (/ 2 * ((exp (- (2 * r)) * gaussdens (u - r / u)) * (1 + r / (u * u)) - (exp (2 * r) * gaussdens (u + r / u)) * (1 - r / (u * u)))).
    + unfold Rdiv, Rminus. field. lra.
    + rewrite mix_minus, mix_plus by lra. field. lra.
Qed.

(** ** Closed forms of the mixtures *)
Lemma mixd_derive r u : 0 < u -> is_derive (mixd r) u ((- (2 * u) + 2 * (r * r) / (u * (u * u))) * mixd r u).
Proof.
  intros U. unfold mixd. auto_derive; [repeat split; lra|].
  unfold Rdiv, Rminus. set (E1 := exp (- (u * u) + - (r * / u * (r * / u)))).
  field. lra.
Qed.
Definition A1 (r u : R) : R := - (/ 2) * (u * mixd r u) + (/ 2 * Phi r u + r * Psi r u).
Definition A2 (r u : R) : R := - (/ 2) * (u ^ 3 * mixd r u) + (3 / 2 * A1 r u + r * r * Phi r u).
Lemma A1_derive r u : 0 < u -> is_derive (A1 r) u (u ^ 2 * mixd r u).
Proof.
  intros U. unfold A1. pose proof (mixd_derive r u U) as D0. pose proof (Phi_derive r u U) as D1. pose proof (Psi_derive r u U) as D2.
  auto_derive.
  - repeat split; eexists; eauto.
  - rewrite (is_derive_unique (fun x : R => mixd r x) _ _ D0), (is_derive_unique (fun x : R => Phi r x) _ _ D1), (is_derive_unique (fun x : R => Psi r x) _ _ D2).
    field. lra.
Qed.
Lemma A2_derive r u : 0 < u -> is_derive (A2 r) u (u ^ 4 * mixd r u).
Proof.
  intros U. unfold A2. pose proof (mixd_derive r u U) as D0. pose proof (Phi_derive r u U) as D1. pose proof (A1_derive r u U) as D2.
  auto_derive.
  - repeat split; eexists; eauto.
  - rewrite (is_derive_unique (fun x : R => mixd r x) _ _ D0), (is_derive_unique (fun x : R => Phi r x) _ _ D1), (is_derive_unique (fun x : R => A1 r x) _ _ D2).
    field. lra.
Qed.

Definition anti (p : nat) : R -> R -> R := match p with O => Phi | S O => A1 | _ => A2 end.
Lemma anti_derive p r u : (p <= 2)%nat -> 0 < u -> is_derive (anti p r) u (u ^ (2 * p) * mixd r u).
Proof.
  intros Hp U. destruct p as [|[|[|p]]]; [| | |lia]; cbn [anti Nat.mul Nat.add].
  - replace (u ^ 0 * mixd r u) with (mixd r u) by ring. apply Phi_derive; auto.
  - apply A1_derive; auto.
  - apply A2_derive; auto.
Qed.
Lemma weight_cont p r u : 0 < u -> continuous (fun u => u ^ (2 * p) * mixd r u) u.
Proof.
  intros U. apply (continuous_mult (fun u => u ^ (2 * p)) (mixd r)).
  - apply (ex_derive_continuous (fun u => u ^ (2 * p))). auto_derive; auto.
  - apply (ex_derive_continuous (mixd r)). eexists. apply mixd_derive; auto.
Qed.
Lemma mix_int p r a b : (p <= 2)%nat -> 0 < a -> a <= b ->
  is_RInt (fun u => u ^ (2 * p) * mixd r u) a b (anti p r b - anti p r a).
Proof.
  intros Hp A B. apply (is_RInt_derive (anti p r)).
  - intros x Hx. rewrite Rmin_left, Rmax_right in Hx by lra. apply anti_derive; auto; lra.
  - intros x Hx. rewrite Rmin_left, Rmax_right in Hx by lra. apply weight_cont; lra.
Qed.

(** ** Limits along [1/(n+1), n+1] *)
Definition bn (n : nat) : R := INR n + 1.
Lemma bn_pos n : 1 <= bn n.
Proof. unfold bn. pose proof (pos_INR n). lra. Qed.
Lemma bn_lim : is_lim_seq bn p_infty.
Proof.
  unfold bn. apply (is_lim_seq_plus INR (fun _ => 1) p_infty 1 p_infty); [apply is_lim_seq_INR|apply is_lim_seq_const|reflexivity].
Qed.
Lemma bn_inv_lim : is_lim_seq (fun n => / bn n) 0.
Proof. apply (is_lim_seq_inv bn p_infty); [apply bn_lim|discriminate]. Qed.
Lemma rb_lim r : is_lim_seq (fun n => r / bn n) 0.
Proof.
  replace (Finite 0) with (Rbar_mult r 0) by (cbn; f_equal; ring).
  apply (is_lim_seq_scal_l (fun n => / bn n) r 0). apply bn_inv_lim.
Qed.
Lemma lim_seq_far (f : R -> R) (s : nat -> R) (l : Rbar) (x : Rbar) :
  is_lim f x l -> is_lim_seq s x -> (forall c, x <> Finite c) -> is_lim_seq (fun n => f (s n)) l.
Proof.
  intros F S N. apply (is_lim_comp_seq f s x l F); auto. exists 0%nat. intros n _ E. apply (N (s n)). symmetry; exact E.
Qed.

Section Lims.
Variable L : R.
Hypothesis LP : is_lim H_ p_infty L.
Hypothesis LM : is_lim H_ m_infty (- L).

Lemma hb_minus r : is_lim_seq (fun n => H_ (bn n - r / bn n)) L.
Proof.
  apply (lim_seq_far H_ _ L p_infty LP); [|discriminate].
  apply (is_lim_seq_minus bn (fun n => r / bn n) p_infty 0 p_infty); [apply bn_lim|apply rb_lim|reflexivity].
Qed.
Lemma hb_plus r : is_lim_seq (fun n => H_ (bn n + r / bn n)) L.
Proof.
  apply (lim_seq_far H_ _ L p_infty LP); [|discriminate].
  apply (is_lim_seq_plus bn (fun n => r / bn n) p_infty 0 p_infty); [apply bn_lim|apply rb_lim|reflexivity].
Qed.
Lemma rdivinv r n : r / (/ bn n) = r * bn n.
Proof. unfold Rdiv. rewrite Rinv_inv. reflexivity. Qed.
Lemma ra_lim r : 0 < r -> is_lim_seq (fun n => r / (/ bn n)) p_infty.
Proof.
  intros R0. apply (is_lim_seq_ext (fun n => r * bn n)); [intros; rewrite rdivinv; reflexivity|].
  apply (is_lim_seq_mult (fun _ => r) bn r p_infty p_infty); [apply is_lim_seq_const|apply bn_lim|].
  unfold is_Rbar_mult, Rbar_mult'. destruct (Rle_dec 0 r) as [H|H]; [|lra].
  destruct (Rle_lt_or_eq_dec 0 r H); [reflexivity|lra].
Qed.
Lemma ha_minus r : 0 < r -> is_lim_seq (fun n => H_ (/ bn n - r / (/ bn n))) (- L).
Proof.
  intros R0. apply (lim_seq_far H_ _ (- L) m_infty LM); [|discriminate].
  apply (is_lim_seq_minus (fun n => / bn n) (fun n => r / (/ bn n)) 0 p_infty m_infty); [apply bn_inv_lim|apply ra_lim; auto|reflexivity].
Qed.
Lemma ha_plus r : 0 < r -> is_lim_seq (fun n => H_ (/ bn n + r / (/ bn n))) L.
Proof.
  intros R0. apply (lim_seq_far H_ _ L p_infty LP); [|discriminate].
  apply (is_lim_seq_plus (fun n => / bn n) (fun n => r / (/ bn n)) 0 p_infty p_infty); [apply bn_inv_lim|apply ra_lim; auto|reflexivity].
Qed.
Lemma H_0 : H_ 0 = 0.
Proof. apply (RInt_point (V := R_CompleteNormedModule) 0 gaussdens). Qed.
Lemma ha_zero : is_lim_seq (fun n => H_ (/ bn n)) 0.
Proof.
  rewrite <- H_0. apply (is_lim_seq_continuous H_ (fun n => / bn n) 0); [|apply bn_inv_lim].
  apply derivable_continuous_pt. exists (gaussdens 0). apply is_derive_Reals, H_derive.
Qed.

Lemma lim_comb (f1 f2 : nat -> R) (l1 l2 c1 c2 : R) : is_lim_seq f1 l1 -> is_lim_seq f2 l2 ->
  is_lim_seq (fun n => c1 * f1 n + c2 * f2 n) (c1 * l1 + c2 * l2).
Proof.
  intros A B.
  apply (is_lim_seq_plus' (fun n => c1 * f1 n) (fun n => c2 * f2 n)); apply (is_lim_seq_scal_l _ _ (Finite _)); auto.
Qed.

Lemma Phi_lim r : 0 <= r -> is_lim_seq (fun n => Phi r (bn n) - Phi r (/ bn n)) (L * exp (- (2 * r))).
Proof.
  intros [R0|<-].
  - eapply is_lim_seq_ext with (u := fun n =>
      1 * (/ 2 * exp (- (2 * r)) * H_ (bn n - r / bn n) + / 2 * exp (2 * r) * H_ (bn n + r / bn n)) +
      (-1) * (/ 2 * exp (- (2 * r)) * H_ (/ bn n - r / (/ bn n)) + / 2 * exp (2 * r) * H_ (/ bn n + r / (/ bn n)))).
    { intros n. unfold Phi. ring. }
    replace (L * exp (- (2 * r))) with (1 * (/ 2 * exp (- (2 * r)) * L + / 2 * exp (2 * r) * L) +
      (-1) * (/ 2 * exp (- (2 * r)) * (- L) + / 2 * exp (2 * r) * L)) by field.
    apply lim_comb; apply lim_comb; auto using hb_minus, hb_plus, ha_minus, ha_plus.
  - eapply is_lim_seq_ext with (u := fun n => 1 * H_ (bn n - 0 / bn n) + (-1) * H_ (/ bn n)).
    { intros n. unfold Phi. replace (- (2 * 0)) with 0 by ring. replace (2 * 0) with 0 by ring. rewrite exp_0.
      pose proof (bn_pos n). replace (0 / bn n) with 0 by (field; lra). replace (0 / / bn n) with 0 by (rewrite rdivinv; ring).
      rewrite !Rminus_0_r, !Rplus_0_r. field. }
    replace (- (2 * 0)) with 0 by ring. rewrite exp_0.
    replace (L * 1) with (1 * L + (-1) * 0) by ring. apply lim_comb; auto using hb_minus, ha_zero.
Qed.
Lemma Psi_lim r : 0 <= r -> is_lim_seq (fun n => r * Psi r (bn n) - r * Psi r (/ bn n)) (r * (L * exp (- (2 * r)))).
Proof.
  intros [R0|<-].
  - eapply is_lim_seq_ext with (u := fun n =>
      r * (/ 2 * exp (- (2 * r)) * H_ (bn n - r / bn n) + - (/ 2 * exp (2 * r)) * H_ (bn n + r / bn n)) +
      (- r) * (/ 2 * exp (- (2 * r)) * H_ (/ bn n - r / (/ bn n)) + - (/ 2 * exp (2 * r)) * H_ (/ bn n + r / (/ bn n)))).
    { intros n. unfold Psi. ring. }
    replace (r * (L * exp (- (2 * r)))) with (r * (/ 2 * exp (- (2 * r)) * L + - (/ 2 * exp (2 * r)) * L) +
      (- r) * (/ 2 * exp (- (2 * r)) * (- L) + - (/ 2 * exp (2 * r)) * L)) by field.
    apply lim_comb; apply lim_comb; auto using hb_minus, hb_plus, ha_minus, ha_plus.
  - eapply is_lim_seq_ext with (u := fun n => 0). { intros n. ring. }
    replace (0 * (L * exp (- (2 * 0)))) with 0 by ring. apply is_lim_seq_const.
Qed.
End Lims.

Lemma mixd_pos r u : 0 < mixd r u.
Proof. apply exp_pos. Qed.
Lemma mixd_le1 r u : mixd r u <= 1.
Proof.
  unfold mixd. rewrite <- exp_0. assert (- (u * u) - r / u * (r / u) <= 0) by nra.
  destruct H as [H|H]; [left; apply exp_increasing; auto|rewrite H; lra].
Qed.
Lemma u3_mixd r u : 1 <= u -> u ^ 3 * mixd r u <= 4 * / u.
Proof.
  intros U. unfold mixd. set (t := u * u / 2).
  assert (T : 0 < t) by (unfold t; nra).
  assert (E : exp (- (u * u) - r / u * (r / u)) <= exp (- (u * u))).
  { assert (H : - (u * u) - r / u * (r / u) <= - (u * u)) by nra. destruct H as [H|H]; [left; apply exp_increasing; auto|rewrite H; lra]. }
  assert (B : exp (- (u * u)) * (t * t) <= 1).
  { replace (- (u * u)) with (- t + - t) by (unfold t; field). rewrite exp_plus.
    assert (K : exp (- t) * t <= 1).
    { apply (Rmult_le_reg_l (exp t)); [apply exp_pos|]. rewrite <- Rmult_assoc, <- exp_plus.
      replace (t + - t) with 0 by ring. rewrite exp_0. pose proof (exp_ineq1 t ltac:(lra)). lra. }
    pose proof (exp_pos (- t)). assert (0 <= exp (- t) * t) by nra.
    replace (exp (- t) * exp (- t) * (t * t)) with ((exp (- t) * t) * (exp (- t) * t)) by ring. nra. }
  apply (Rmult_le_reg_l u); [lra|]. replace (u * (4 * / u)) with 4 by (field; lra).
  replace (u * (u ^ 3 * exp (- (u * u) - r / u * (r / u)))) with (4 * (t * t) * exp (- (u * u) - r / u * (r / u))) by (unfold t; field).
  assert (0 <= t * t) by nra. nra.
Qed.
Lemma b3_lim r : is_lim_seq (fun n => bn n ^ 3 * mixd r (bn n)) 0.
Proof.
  apply (is_lim_seq_le_le (fun _ => 0) _ (fun n => 4 * / bn n)).
  - intros n. pose proof (bn_pos n). pose proof (mixd_pos r (bn n)). split; [|apply u3_mixd; auto].
    pose proof (pow_le (bn n) 3 ltac:(lra)). nra.
  - apply is_lim_seq_const.
  - replace (Finite 0) with (Rbar_mult 4 0) by (cbn; f_equal; ring). apply is_lim_seq_scal_l, bn_inv_lim.
Qed.
Lemma b1_lim r : is_lim_seq (fun n => bn n * mixd r (bn n)) 0.
Proof.
  apply (is_lim_seq_le_le (fun _ => 0) _ (fun n => bn n ^ 3 * mixd r (bn n))); [|apply is_lim_seq_const|apply b3_lim].
  intros n. pose proof (bn_pos n) as B. pose proof (mixd_pos r (bn n)) as M. split; [nra|].
  apply Rmult_le_compat_r; [lra|]. assert (1 <= bn n * bn n) by nra. cbn [pow]. nra.
Qed.
Lemma a1_lim r : is_lim_seq (fun n => / bn n * mixd r (/ bn n)) 0.
Proof.
  apply (is_lim_seq_le_le (fun _ => 0) _ (fun n => / bn n)); [|apply is_lim_seq_const|apply bn_inv_lim].
  intros n. pose proof (bn_pos n). assert (0 < / bn n) by (apply Rinv_0_lt_compat; lra).
  pose proof (mixd_pos r (/ bn n)). pose proof (mixd_le1 r (/ bn n)). nra.
Qed.
Lemma a3_lim r : is_lim_seq (fun n => (/ bn n) ^ 3 * mixd r (/ bn n)) 0.
Proof.
  apply (is_lim_seq_le_le (fun _ => 0) _ (fun n => / bn n)); [|apply is_lim_seq_const|apply bn_inv_lim].
  intros n. pose proof (bn_pos n). assert (I0 : 0 < / bn n) by (apply Rinv_0_lt_compat; lra).
  assert (I1 : / bn n <= 1) by (rewrite <- Rinv_1; apply Rinv_le_contravar; lra).
  pose proof (mixd_pos r (/ bn n)) as M0. pose proof (mixd_le1 r (/ bn n)) as M1. set (a := / bn n) in *.
  assert (0 < a * a <= 1) by nra. assert (P : 0 < a ^ 3 <= a) by (cbn [pow]; nra). nra.
Qed.

(** Mixture number p in closed form (up to the constant L). *)
Definition mixval (p : nat) (r : R) : R :=
  match p with O => exp (- (2 * r)) | S O => (/ 2 + r) * exp (- (2 * r)) | _ => (3 / 4 + 3 / 2 * r + r * r) * exp (- (2 * r)) end.
Theorem mixture_limit : exists L, 0 < L /\ forall p r, (p <= 2)%nat -> 0 <= r ->
  is_lim_seq (fun n => anti p r (bn n) - anti p r (/ bn n)) (L * mixval p r).
Proof.
  destruct H_limit as (L & P & LP & LM). exists L. split; auto.
  assert (B1 : forall r, 0 <= r -> is_lim_seq (fun n => A1 r (bn n) - A1 r (/ bn n)) (L * mixval 1 r)).
  { intros r R0.
    apply is_lim_seq_ext with (u := fun n =>
      1 * (- / 2 * (bn n * mixd r (bn n)) + / 2 * (/ bn n * mixd r (/ bn n))) +
      1 * (/ 2 * (Phi r (bn n) - Phi r (/ bn n)) + 1 * (r * Psi r (bn n) - r * Psi r (/ bn n)))).
    { intros n. unfold A1. ring. }
    replace (L * mixval 1 r) with (1 * (- / 2 * 0 + / 2 * 0) + 1 * (/ 2 * (L * exp (- (2 * r))) + 1 * (r * (L * exp (- (2 * r)))))) by (cbn [mixval]; ring).
    repeat apply lim_comb; auto using b1_lim, a1_lim, Phi_lim, Psi_lim. }
  intros p r Hp R0. destruct p as [|[|[|p]]]; [| | |lia]; cbn [anti].
  - apply Phi_lim; auto.
  - auto.
  - apply is_lim_seq_ext with (u := fun n =>
      1 * (- / 2 * (bn n ^ 3 * mixd r (bn n)) + / 2 * ((/ bn n) ^ 3 * mixd r (/ bn n))) +
      1 * (3 / 2 * (A1 r (bn n) - A1 r (/ bn n)) + r * r * (Phi r (bn n) - Phi r (/ bn n)))).
    { intros n. unfold A2. ring. }
    replace (L * mixval 2 r) with (1 * (- / 2 * 0 + / 2 * 0) + 1 * (3 / 2 * (L * mixval 1 r) + r * r * (L * exp (- (2 * r))))) by (cbn [mixval]; field).
    repeat apply lim_comb; auto using b3_lim, a3_lim, Phi_lim.
Qed.
