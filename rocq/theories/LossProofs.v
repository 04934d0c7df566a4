(** Proofs about the loss functions. *)
From Coq Require Import Lia Lra.
From Verif Require Import Base NdModel NdFacts RSum LinAlgModel LinAlgSpec LinAlgFacts GPModel
  LossModel LossSpec ScaleProofs.
Local Open Scope R_scope.

Lemma total_ext sh : forall f g, (forall idx, inb sh idx -> f idx = g idx) -> total sh f = total sh g.
Proof.
  induction sh as [|d sh IH]; intros f g H; cbn.
  - apply H. constructor.
  - apply rsum_ext. intros i Hi. apply IH. intros l Hl. apply H. constructor; assumption.
Qed.

Lemma total_ravel sh : forall f, rsum (nprod sh) (fun k => f (unravel sh k)) = total sh f.
Proof.
  induction sh as [|d sh IH]; intros f.
  - rewrite nprod0. cbn. lra.
  - rewrite nprod_cons, rsum_mul. cbn [total]. apply rsum_ext. intros i Hi.
    rewrite <- (IH (fun l => f (i :: l))). apply rsum_ext. intros j Hj. cbn [unravel].
    assert (nprod sh <> 0)%nat by lia.
    rewrite Nat.div_add_l by assumption. rewrite (Nat.div_small j) by assumption.
    rewrite Nat.add_0_r. f_equal. f_equal. f_equal.
    rewrite Nat.add_comm, Nat.mod_add by assumption. apply Nat.mod_small. assumption.
Qed.

Lemma nd_sum_total t : nd_sum t = total (shape t) (at_ t).
Proof. apply (total_ravel (shape t)). Qed.

Lemma total_nonneg sh : forall f, (forall idx, inb sh idx -> 0 <= f idx) -> 0 <= total sh f.
Proof.
  induction sh as [|d sh IH]; intros f H; cbn.
  - apply H. constructor.
  - apply rsum_nonneg. intros i Hi. apply IH. intros l Hl. apply H. constructor; assumption.
Qed.

Lemma total_le sh : forall f g, (forall idx, inb sh idx -> f idx <= g idx) -> total sh f <= total sh g.
Proof.
  induction sh as [|d sh IH]; intros f g H; cbn.
  - apply H. constructor.
  - apply rsum_le. intros i Hi. apply IH. intros l Hl. apply H. constructor; assumption.
Qed.

Lemma total_zero_inv sh : forall f, (forall idx, inb sh idx -> 0 <= f idx) -> total sh f = 0 ->
  forall idx, inb sh idx -> f idx = 0.
Proof.
  induction sh as [|d sh IH]; intros f H E idx Hi; cbn in E.
  - apply inb_inv_nil in Hi. subst. assumption.
  - apply inb_inv_cons in Hi. destruct Hi as [i [l [-> [Hi Hl]]]].
    apply (IH (fun l => f (i :: l))); try assumption.
    + intros. apply H. constructor; assumption.
    + refine (rsum_zero_inv d (fun i => total sh (fun l => f (i :: l))) _ E i Hi).
      intros j Hj. apply total_nonneg. intros. apply H. constructor; assumption.
Qed.

Lemma total_zero sh f : (forall idx, inb sh idx -> f idx = 0) -> total sh f = 0.
Proof.
  intros H. rewrite (total_ext sh f (fun _ => 0)) by assumption. clear.
  induction sh; cbn; [reflexivity|]. rewrite IHsh. apply rsum_0.
Qed.

Lemma total_scal sh c : forall f, total sh (fun i => c * f i) = c * total sh f.
Proof.
  induction sh as [|d sh IH]; intros f; cbn; [reflexivity|].
  rewrite <- rsum_scal. apply rsum_ext. intros. apply IH.
Qed.

Lemma bop_same {A B C} (f : A -> B -> C) x y : shape x = shape y ->
  exists t, bop f x y = Ok t /\ shape t = shape x /\
    forall idx, inb (shape x) idx -> at_ t idx = f (at_ x idx) (at_ y idx).
Proof.
  intros E. unfold bop. rewrite E, bshape_refl. eexists. split; [reflexivity|]. split; [reflexivity|].
  intros idx Hi. cbn. rewrite bidx_id by assumption. reflexivity.
Qed.

(** ** Mean squared error *)
Lemma mse_formula p t : shape p = shape t ->
  mse_fn p t = Ok (total (shape p) (residual_sq p t) / INR (nprod (shape p))).
Proof.
  intros E. unfold mse_fn, mse_unnormalized.
  destruct (bop_same Rminus p t E) as [r [Hr [Hs Ha]]]. rewrite Hr. cbn [bind].
  do 2 f_equal. rewrite nd_sum_total. cbn [shape ndmap]. rewrite Hs. apply total_ext.
  intros idx Hi. unfold ndmap, residual_sq. cbn [at_]. rewrite Ha by assumption. reflexivity.
Qed.

Lemma mse_nonneg p t v : shape p = shape t -> (0 < nprod (shape p))%nat -> mse_fn p t = Ok v ->
  0 <= v /\ (v = 0 <-> nd_eq p t).
Proof.
  intros E Hn Hv. rewrite mse_formula in Hv by assumption. injection Hv as <-.
  assert (HN : 0 < INR (nprod (shape p))) by (apply lt_0_INR; assumption).
  assert (Hq : forall idx, inb (shape p) idx -> 0 <= residual_sq p t idx)
    by (intros; unfold residual_sq; apply pow2_ge_0).
  assert (H0 : 0 <= total (shape p) (residual_sq p t)) by (apply total_nonneg; assumption).
  split.
  - apply Rmult_le_pos; [assumption|]. left. apply Rinv_0_lt_compat. assumption.
  - split.
    + intros Hz. split; [assumption|]. intros idx Hi.
      assert (Ht : total (shape p) (residual_sq p t) = 0).
      { apply Rmult_integral in Hz. destruct Hz as [Hz|Hz]; [assumption|].
        exfalso. apply Rinv_neq_0_compat in Hz; [assumption|lra]. }
      pose proof (total_zero_inv _ _ Hq Ht idx Hi) as Hr. unfold residual_sq in Hr.
      assert (at_ p idx - at_ t idx = 0) by nra. lra.
    + intros [_ He]. rewrite total_zero; [unfold Rdiv; ring|]. intros idx Hi. unfold residual_sq.
      rewrite He by assumption. ring.
Qed.

(** ** Pseudo-Huber *)
Lemma huber_formula p t d : shape p = shape t ->
  pseudo_huber_fn p t d =
  Ok (total (shape p) (fun idx => huber_entry d (at_ t idx - at_ p idx))).
Proof.
  intros E. unfold pseudo_huber_fn.
  destruct (bop_same Rminus t p (eq_sym E)) as [r [Hr [Hs Ha]]]. rewrite Hr. cbn [bind].
  f_equal. rewrite nd_sum_total. rewrite <- total_scal. cbn [shape ndmap]. rewrite Hs, <- E.
  apply total_ext. intros idx Hi. unfold ndmap, huber_entry. cbn [at_].
  rewrite Ha by (rewrite <- E; assumption). reflexivity.
Qed.

Lemma sqrt_ge_1 x : 0 <= x -> 1 <= sqrt (1 + x).
Proof. intros. rewrite <- sqrt_1 at 1. apply sqrt_le_1; lra. Qed.

Lemma huber_nonneg d r : 0 <= huber_entry d r.
Proof.
  unfold huber_entry. apply Rmult_le_pos; [apply pow2_ge_0|].
  pose proof (sqrt_ge_1 ((r / d) ^ 2) (pow2_ge_0 _)). lra.
Qed.

Lemma huber_zero d r : d <> 0 -> huber_entry d r = 0 -> r = 0.
Proof.
  intros Hd H. unfold huber_entry in H. apply Rmult_integral in H. destruct H as [H|H].
  - exfalso. apply (pow_nonzero d 2 Hd). assumption.
  - assert (Hs : sqrt (1 + (r / d) ^ 2) = 1) by lra.
    pose proof (pow2_ge_0 (r / d)) as Hq.
    assert (Hx : (r / d) ^ 2 = 0).
    { pose proof (sqrt_sqrt (1 + (r / d) ^ 2) ltac:(lra)) as Hx. rewrite Hs in Hx. lra. }
    assert (r / d = 0) by nra. unfold Rdiv in *.
    apply Rmult_integral in H0. destruct H0; [assumption|].
    exfalso. apply (Rinv_neq_0_compat d Hd). assumption.
Qed.

Lemma sqrt_upper x : 0 <= x -> sqrt (1 + x) <= 1 + x / 2.
Proof.
  intros Hx. rewrite <- (sqrt_pow2 (1 + x / 2)) by lra. apply sqrt_le_1; nra.
Qed.

Lemma sqrt_upper_abs x : sqrt (1 + x ^ 2) <= 1 + Rabs x.
Proof.
  rewrite <- (sqrt_pow2 (1 + Rabs x)) by (pose proof (Rabs_pos x); lra).
  rewrite <- (pow2_abs x). pose proof (Rabs_pos x). apply sqrt_le_1; nra.
Qed.

Lemma sqrt_lower_abs x : Rabs x <= sqrt (1 + x ^ 2).
Proof.
  rewrite <- (sqrt_pow2 (Rabs x)) by apply Rabs_pos. rewrite (pow2_abs x).
  pose proof (pow2_ge_0 x). apply sqrt_le_1; lra.
Qed.

Lemma huber_quadratic d r : d <> 0 -> huber_entry d r <= r ^ 2 / 2.
Proof.
  intros Hd. unfold huber_entry. pose proof (pow2_ge_0 (r / d)) as Hq.
  pose proof (sqrt_upper _ Hq) as H.
  assert (Hdd : 0 <= d ^ 2) by apply pow2_ge_0.
  apply Rle_trans with (d ^ 2 * ((r / d) ^ 2 / 2)).
  - apply Rmult_le_compat_l; [assumption|lra].
  - right. field. assumption.
Qed.

Lemma abs_div d r : d <> 0 -> d ^ 2 * Rabs (r / d) = Rabs d * Rabs r.
Proof.
  intros Hd. unfold Rdiv. rewrite Rabs_mult, Rabs_inv, <- (pow2_abs d).
  assert (Rabs d <> 0) by (apply Rabs_no_R0; assumption). field. assumption.
Qed.

Lemma huber_linear_upper d r : d <> 0 -> huber_entry d r <= Rabs d * Rabs r.
Proof.
  intros Hd. rewrite <- abs_div by assumption. unfold huber_entry.
  apply Rmult_le_compat_l; [apply pow2_ge_0|]. pose proof (sqrt_upper_abs (r / d)). lra.
Qed.

Lemma huber_linear_lower d r : d <> 0 -> Rabs d * Rabs r - d ^ 2 <= huber_entry d r.
Proof.
  intros Hd. rewrite <- abs_div by assumption. unfold huber_entry.
  pose proof (sqrt_lower_abs (r / d)). pose proof (pow2_ge_0 d).
  apply Rle_trans with (d ^ 2 * (Rabs (r / d) - 1)); [right; ring|].
  apply Rmult_le_compat_l; lra.
Qed.

Lemma huber_bounds p t d v : shape p = shape t -> d <> 0 -> pseudo_huber_fn p t d = Ok v ->
  (0 <= v /\ (v = 0 <-> nd_eq p t)) /\
  v <= total (shape p) (residual_sq p t) / 2 /\
  v <= total (shape p) (fun idx => Rabs d * Rabs (at_ p idx - at_ t idx)) /\
  total (shape p) (fun idx => Rabs d * Rabs (at_ p idx - at_ t idx) - d ^ 2) <= v.
Proof.
  intros E Hd H. rewrite huber_formula in H by assumption. injection H as <-.
  split; [split|].
  - apply total_nonneg. intros. apply huber_nonneg.
  - split.
    + intros Hz. split; [assumption|]. intros idx Hi.
      pose proof (total_zero_inv _ _ (fun i _ => huber_nonneg d (at_ t i - at_ p i)) Hz idx Hi) as Hr.
      cbn beta in Hr. apply huber_zero in Hr; [lra|assumption].
    + intros [_ He]. apply total_zero. intros idx Hi. rewrite He by assumption.
      unfold huber_entry, Rdiv. replace (at_ t idx - at_ t idx) with 0 by ring.
      rewrite Rmult_0_l. replace (1 + 0 ^ 2) with 1 by ring. rewrite sqrt_1. ring.
  - assert (Hsym : forall idx, Rabs (at_ p idx - at_ t idx) = Rabs (at_ t idx - at_ p idx))
      by (intros; apply Rabs_minus_sym).
    split; [|split].
    + apply Rle_trans with (total (shape p) (fun idx => / 2 * residual_sq p t idx)).
      * apply total_le. intros idx Hi.
        apply Rle_trans with ((at_ t idx - at_ p idx) ^ 2 / 2); [apply huber_quadratic; assumption|].
        unfold residual_sq. right. field.
      * rewrite total_scal. right. unfold Rdiv. ring.
    + apply total_le. intros. rewrite Hsym. apply huber_linear_upper. assumption.
    + apply total_le. intros. rewrite Hsym. apply huber_linear_lower. assumption.
Qed.

(** ** Leave-one-out likelihood *)
Lemma vec_total b f : total [b] f = rsum b (fun i => f [i]).
Proof. reflexivity. Qed.

Section L.
Variable ls : lsolver.
Variable sld : nat -> mat -> R * R.

Lemma lool_unscaled_formula p t v b : vec3 p t v b ->
  lool_fn_unscaled ls sld p t v =
  Ok (rsum b (fun i => lool_entry (at_ p [i] - at_ t [i]) (at_ v [i]))).
Proof.
  intros [Hp [Ht Hv]]. unfold lool_fn_unscaled. rewrite Hv.
  destruct (bop_same Rminus p t ltac:(congruence)) as [r [Er [Sr Ar]]]. rewrite Er. cbn [bind].
  destruct (bop_same Rdiv (ndmap (fun x => x ^ 2) r) v ltac:(cbn [shape ndmap]; congruence))
    as [q [Eq [Sq Aq]]]. rewrite Eq. cbn [bind].
  destruct (bop_same Rplus q (ndmap ln v) ltac:(cbn [shape ndmap] in *; congruence))
    as [u [Eu [Su Au]]]. rewrite Eu. cbn [bind]. f_equal.
  cbn [shape ndmap] in *. rewrite nd_sum_total.
  rewrite Su, Sq, Sr, Hp, vec_total. apply rsum_ext. intros i Hi.
  assert (Hi1 : inb [b] [i]) by (apply inb1; assumption).
  rewrite Au, Aq by (rewrite ?Sq, ?Sr, ?Hp; assumption). cbn [at_ ndmap].
  rewrite Ar by (rewrite Hp; assumption). reflexivity.
Qed.

Lemma lool_formula p t v b s : vec3 p t v b ->
  lool_fn ls sld p t v s =
  Ok (rsum b (fun i => lool_entry (at_ p [i] - at_ t [i]) (s * at_ v [i]))).
Proof.
  intros [Hp [Ht Hv]]. unfold lool_fn.
  exact (lool_unscaled_formula p t (ndmap (Rmult s) v) b (conj Hp (conj Ht Hv))).
Qed.

Lemma looph_unscaled_formula p t v b d : vec3 p t v b ->
  looph_fn_unscaled p t v d =
  Ok (rsum b (fun i => looph_entry d (at_ p [i] - at_ t [i]) (at_ v [i]))).
Proof.
  intros [Hp [Ht Hv]]. unfold looph_fn_unscaled. rewrite Hv.
  destruct (bop_same Rminus t p ltac:(congruence)) as [r [Er [Sr Ar]]]. rewrite Er. cbn [bind].
  destruct (bop_same Rdiv (ndmap (fun x => x ^ 2) r)
     (ndmap (Rmult (d ^ 2)) v) ltac:(cbn [shape ndmap]; congruence))
    as [q [Eq [Sq Aq]]]. rewrite Eq. cbn [bind].
  destruct (bop_same Rplus (ndmap (fun x => 2 * d ^ 2 * (sqrt (1 + x) - 1)) q)
     (ndmap ln v) ltac:(cbn [shape ndmap] in *; congruence))
    as [u [Eu [Su Au]]]. rewrite Eu. cbn [bind]. f_equal.
  cbn [shape ndmap] in *. rewrite nd_sum_total.
  rewrite Su, Sq, Sr, Ht, vec_total. apply rsum_ext. intros i Hi.
  assert (Hi1 : inb [b] [i]) by (apply inb1; assumption).
  rewrite Au by (rewrite Sq, Sr, Ht; assumption). cbn [at_ ndmap].
  rewrite Aq by (rewrite Sr, Ht; assumption). cbn [at_ ndmap].
  rewrite Ar by (rewrite Ht; assumption). unfold looph_entry.
  replace ((at_ t [i] - at_ p [i]) ^ 2) with ((at_ p [i] - at_ t [i]) ^ 2) by ring. reflexivity.
Qed.

Lemma looph_formula p t v b s d : vec3 p t v b ->
  looph_fn p t v s d =
  Ok (rsum b (fun i => looph_entry d (at_ p [i] - at_ t [i]) (s * at_ v [i]))).
Proof.
  intros [Hp [Ht Hv]]. unfold looph_fn.
  exact (looph_unscaled_formula p t (ndmap (Rmult s) v) b d (conj Hp (conj Ht Hv))).
Qed.
End L.

Lemma looph_le_lool d r v : d <> 0 -> 0 < v -> looph_entry d r v <= lool_entry r v.
Proof.
  intros Hd Hv. unfold looph_entry, lool_entry. apply Rplus_le_compat_r.
  assert (Hdd : 0 < d ^ 2) by (pose proof (pow_nonzero d 2 Hd); pose proof (pow2_ge_0 d); lra).
  assert (Hq : 0 <= r ^ 2 / (d ^ 2 * v)).
  { apply Rmult_le_pos; [apply pow2_ge_0|]. left. apply Rinv_0_lt_compat.
    apply Rmult_lt_0_compat; assumption. }
  pose proof (sqrt_upper _ Hq) as H.
  apply Rle_trans with (2 * d ^ 2 * (r ^ 2 / (d ^ 2 * v) / 2)).
  - apply Rmult_le_compat_l; lra.
  - right. field. split; lra.
Qed.

Lemma looph_log_lower d r v : d <> 0 -> 0 < v ->
  2 * Rabs d * Rabs r / sqrt v - 2 * d ^ 2 + ln v <= looph_entry d r v.
Proof.
  intros Hd Hv. unfold looph_entry. apply Rplus_le_compat_r.
  assert (Hdd : 0 < d ^ 2) by (pose proof (pow_nonzero d 2 Hd); pose proof (pow2_ge_0 d); lra).
  assert (Hsv : 0 < sqrt v) by (apply sqrt_lt_R0; assumption).
  assert (Hsv2 : sqrt v * sqrt v = v) by (apply sqrt_sqrt; lra).
  pose proof (sqrt_lower_abs (r / (d * sqrt v))) as H.
  assert (E0 : (r / (d * sqrt v)) ^ 2 = r ^ 2 / (d ^ 2 * v)).
  { transitivity (r ^ 2 / (d ^ 2 * (sqrt v * sqrt v))); [field; lra|]. rewrite Hsv2. reflexivity. }
  rewrite E0 in H.
  assert (E : Rabs (r / (d * sqrt v)) = Rabs r / (Rabs d * sqrt v)).
  { unfold Rdiv. rewrite Rabs_mult, Rabs_inv, Rabs_mult, (Rabs_right (sqrt v)) by lra. reflexivity. }
  rewrite E in H.
  assert (Had : 0 < Rabs d) by (apply Rabs_pos_lt; assumption).
  apply Rle_trans with (2 * d ^ 2 * (Rabs r / (Rabs d * sqrt v) - 1)).
  - right. rewrite <- (pow2_abs d). field. split; lra.
  - apply Rmult_le_compat_l; lra.
Qed.

(** Minimization over a common rescaling of the variances. *)
Lemma lool_scale_value b (r v : nat -> R) s : 0 < s -> (forall i, (i < b)%nat -> 0 < v i) ->
  rsum b (fun i => lool_entry (r i) (s * v i)) =
  rsum b (fun i => r i ^ 2 / v i) / s + INR b * ln s + rsum b (fun i => ln (v i)).
Proof.
  intros Hs Hv. rewrite <- (rsum_const b (ln s)).
  replace (rsum b (fun i => r i ^ 2 / v i) / s) with (rsum b (fun i => r i ^ 2 / v i * / s))
    by (rewrite rsum_scal_r; reflexivity).
  rewrite <- !rsum_plus. apply rsum_ext. intros i Hi. specialize (Hv i Hi).
  unfold lool_entry. rewrite ln_mult by assumption. field. split; lra.
Qed.

Lemma lool_scale_min b (r v : nat -> R) s0 s : (0 < b)%nat ->
  (forall i, (i < b)%nat -> 0 < v i) ->
  s0 = / INR b * rsum b (fun i => r i ^ 2 / v i) -> 0 < s0 -> 0 < s ->
  rsum b (fun i => lool_entry (r i) (s0 * v i)) <= rsum b (fun i => lool_entry (r i) (s * v i)) /\
  (s <> s0 -> rsum b (fun i => lool_entry (r i) (s0 * v i)) < rsum b (fun i => lool_entry (r i) (s * v i))).
Proof.
  intros Hb Hv E H0 Hs. rewrite !lool_scale_value by assumption.
  set (Q := rsum b (fun i => r i ^ 2 / v i)) in *.
  set (T := rsum b (fun i => ln (v i))).
  assert (HB : 0 < INR b) by (apply lt_0_INR; assumption).
  assert (HQ : Q = INR b * s0) by (rewrite E; field; lra).
  assert (Hu : 0 < s0 / s) by (apply Rdiv_lt_0_compat; assumption).
  assert (Hl : ln s = ln s0 - ln (s0 / s)).
  { unfold Rdiv. rewrite ln_mult by (try apply Rinv_0_lt_compat; assumption).
    rewrite ln_Rinv by assumption. ring. }
  assert (D : Q / s + INR b * ln s + T - (Q / s0 + INR b * ln s0 + T)
              = INR b * (s0 / s - 1 - ln (s0 / s))).
  { rewrite HQ, Hl. field. split; lra. }
  split.
  - pose proof (ln_le_sub _ Hu). nra.
  - intros Hne. assert (s0 / s <> 1).
    { intros C. apply Hne. assert (s0 = s) by (rewrite <- (Rmult_1_l s), <- C; field; lra). lra. }
    pose proof (ln_lt_sub _ Hu H). nra.
Qed.

(** ** Cross entropy *)
Lemma rsum_exp_pos k f : (0 < k)%nat -> 0 < rsum k (fun c => exp (f c)).
Proof.
  intros Hk. apply Rlt_le_trans with (exp (f O)); [apply exp_pos|].
  apply (rsum_term_le k (fun c => exp (f c)) O); [|assumption]. intros. left. apply exp_pos.
Qed.

Lemma cross_entropy_empty eps p t k : shape p = [O; k] -> cross_entropy_fn eps p t = Err ValueError.
Proof. intros Hp. unfold cross_entropy_fn, softmax. rewrite Hp. reflexivity. Qed.

Lemma cross_entropy_value eps p t b k : shape p = [b; k] -> shape t = [b; k] -> (2 <= k)%nat ->
  (0 < b)%nat ->
  cross_entropy_fn eps p t = Ok (- rsum b (fun i => rsum k (fun j =>
    (if Rltb 0 (at_ t [i; j]) then 1 else 0) * ln (clip eps (prob k (fun c => at_ p [i; c]) j))))).
Proof.
  intros Hp Ht Hk Hb. unfold cross_entropy_fn, softmax. rewrite Hp. cbn [bind]. unfold log_loss.
  cbn [shape ndmap]. rewrite Ht, list_eqb_refl.
  replace (b =? 0)%nat with false by (symmetry; apply Nat.eqb_neq; lia).
  replace (k =? 0)%nat with false by (symmetry; apply Nat.eqb_neq; lia).
  replace (k =? 1)%nat with false by (symmetry; apply Nat.eqb_neq; lia). cbn [orb negb].
  reflexivity.
Qed.

(** One column: the softmax is 1 whatever the scores. *)
Lemma cross_entropy_column eps p t b : shape p = [b; 1%nat] -> shape t = [b; 1%nat] -> 0 < eps < 1/2 ->
  (((forall i j, (i < b)%nat -> (j < b)%nat -> (0 < at_ t [i; O] <-> 0 < at_ t [j; O])) ->
    cross_entropy_fn eps p t = Err ValueError) /\
   (forall i j, (i < b)%nat -> (j < b)%nat -> 0 < at_ t [i; O] -> ~ 0 < at_ t [j; O] ->
    cross_entropy_fn eps p t = Ok (rsum b (fun i => if Rltb 0 (at_ t [i; O]) then - ln (1 - eps) else - ln eps)))).
Proof.
  intros Hp Ht He. unfold cross_entropy_fn, softmax. rewrite Hp. cbn [bind]. unfold log_loss.
  cbn [shape ndmap]. rewrite Ht, list_eqb_refl. cbn [Nat.eqb orb negb].
  cbn [at_ ndmap].
  assert (P : forall i : nat, clip eps (exp (at_ p [i; O]) / rsum 1 (fun c : nat => exp (at_ p [i; c]))) = 1 - eps).
  { intros i. cbn [rsum]. replace (exp (at_ p [i; O]) / (0 + exp (at_ p [i; O]))) with 1.
    - unfold clip. rewrite Rmax_left by lra. apply Rmin_right. lra.
    - field. pose proof (exp_pos (at_ p [i; O])). lra. }
  destruct (b =? 0)%nat eqn:Eb.
  - apply Nat.eqb_eq in Eb. subst b. cbn [orb]. split; [auto|]. intros; lia.
  - apply Nat.eqb_neq in Eb. cbn [orb]. split.
    + intros H. replace (forallb _ (seq 0 b)) with true; [reflexivity|]. symmetry. apply forallb_forall. intros i Hi. apply in_seq in Hi.
      specialize (H i O ltac:(lia) ltac:(lia)). unfold Reqb, Rltb.
      destruct (Rlt_dec 0 (at_ t [i; O])), (Rlt_dec 0 (at_ t [O; O])); try tauto;
        destruct (Req_EM_T _ _); congruence.
    + intros i j Hi Hj Pi Pj. replace (forallb _ (seq 0 b)) with false.
      * f_equal. rewrite <- rsum_opp. apply rsum_ext. intros a Ha. rewrite P. destruct (Rltb 0 (at_ t [a; O])); [ring|].
        replace (1 - (1 - eps)) with eps by ring. ring.
      * symmetry. apply not_true_iff_false. intros C. rewrite forallb_forall in C.
        pose proof (C i ltac:(apply in_seq; lia)) as Ci. pose proof (C j ltac:(apply in_seq; lia)) as Cj.
        unfold Reqb, Rltb in Ci, Cj.
        destruct (Rlt_dec 0 (at_ t [i; O])); [|contradiction]. destruct (Rlt_dec 0 (at_ t [j; O])); [contradiction|].
        destruct (Rlt_dec 0 (at_ t [O; O])).
        -- destruct (Req_EM_T 0 1); [lra|discriminate].
        -- destruct (Req_EM_T 1 0); [lra|discriminate].
Qed.

Lemma cross_entropy_nonneg eps p t b k v : shape p = [b; k] -> shape t = [b; k] -> (2 <= k)%nat ->
  0 < eps < 1/2 -> cross_entropy_fn eps p t = Ok v -> 0 <= v.
Proof.
  intros Hp Ht Hk He H.
  destruct (Nat.eq_dec b 0) as [->|Hb]; [rewrite (cross_entropy_empty _ _ _ k) in H by assumption; discriminate|].
  rewrite (cross_entropy_value _ _ _ b k) in H by (assumption || lia). injection H as <-.
  rewrite <- rsum_opp. apply rsum_nonneg. intros i Hi.
  rewrite <- rsum_opp. apply rsum_nonneg. intros j Hj.
  assert (Hl : ln (clip eps (prob k (fun c => at_ p [i; c]) j)) <= 0).
  { unfold clip. set (q := prob _ _ _).
    assert (0 < Rmin (Rmax q eps) (1 - eps)).
    { apply Rmin_glb_lt; [|lra]. apply Rlt_le_trans with eps; [lra|apply Rmax_r]. }
    pose proof (Rmin_r (Rmax q eps) (1 - eps)). 
    match goal with |- ln ?z <= 0 => pose proof (ln_le_sub z ltac:(assumption)) end. lra. }
  destruct (Rltb 0 (at_ t [i; j])); lra.
Qed.

Lemma clip_id eps x : eps <= x <= 1 - eps -> clip eps x = x.
Proof. intros H. unfold clip. rewrite Rmax_left by lra. apply Rmin_left. lra. Qed.

Lemma cross_entropy_formula eps p t b k : shape p = [b; k] -> shape t = [b; k] -> (2 <= k)%nat ->
  (0 < b)%nat ->
  (forall i j, (i < b)%nat -> (j < k)%nat -> eps <= prob k (fun c => at_ p [i; c]) j <= 1 - eps) ->
  cross_entropy_fn eps p t = Ok (rsum b (fun i => rsum k (fun j =>
    if Rltb 0 (at_ t [i; j]) then - ln (prob k (fun c => at_ p [i; c]) j) else 0))).
Proof.
  intros Hp Ht Hk Hb He. rewrite (cross_entropy_value _ _ _ b k) by assumption. f_equal.
  rewrite <- rsum_opp. apply rsum_ext. intros i Hi. rewrite <- rsum_opp. apply rsum_ext.
  intros j Hj. rewrite clip_id by (apply He; assumption). destruct (Rltb 0 (at_ t [i; j])); ring.
Qed.

Lemma cross_entropy_shift eps p p' t b k c : shape p = [b; k] -> shape p' = [b; k] ->
  shape t = [b; k] -> (2 <= k)%nat ->
  (forall i j, (i < b)%nat -> (j < k)%nat -> at_ p' [i; j] = at_ p [i; j] + c i) ->
  cross_entropy_fn eps p' t = cross_entropy_fn eps p t.
Proof.
  intros Hp Hp' Ht Hk Hc.
  destruct (Nat.eq_dec b 0) as [->|Hb]; [rewrite !(cross_entropy_empty _ _ _ k) by assumption; reflexivity|].
  rewrite !(cross_entropy_value _ _ _ b k) by (assumption || lia).
  do 2 f_equal. apply rsum_ext. intros i Hi. apply rsum_ext. intros j Hj. do 3 f_equal.
  unfold prob. rewrite Hc by assumption.
  rewrite (rsum_ext k (fun c0 => exp (at_ p' [i; c0])) (fun c0 => exp (c i) * exp (at_ p [i; c0]))).
  - rewrite rsum_scal, exp_plus. pose proof (exp_pos (c i)).
    pose proof (rsum_exp_pos k (fun c0 => at_ p [i; c0]) ltac:(lia)). field. lra.
  - intros l Hl. rewrite Hc by assumption. rewrite exp_plus. ring.
Qed.

(** ** Multivariate lool *)
Lemma classic_ex n (w : nat -> R) :
  (exists i, (i < n)%nat /\ w i <> 0) \/ (forall i, (i < n)%nat -> w i = 0).
Proof.
  induction n as [|n [[i [Hi H]]|IH]].
  - right. intros; lia.
  - left. exists i. split; [lia|assumption].
  - destruct (Req_dec (w n) 0) as [E|E].
    + right. intros i Hi. destruct (Nat.eq_dec i n) as [->|]; [assumption|]. apply IH. lia.
    + left. exists n. split; [lia|assumption].
Qed.

Section Block.
Variable ls : lsolver.
Hypothesis Hls : exact_solver ls.
Variable sld : nat -> mat -> R * R.

Lemma lool_block_value p t V b n :
  shape p = [b; n] -> shape t = [b; n] -> shape V = [b; n; n] ->
  (forall x, (x < b)%nat -> nonsingular n (fun i j => at_ V [x; i; j])) ->
  exists q v, lool_fn_unscaled ls sld p t V = Ok v /\
    (forall x, (x < b)%nat -> exists w, solves n (fun i j => at_ V [x; i; j]) w
        (fun i => at_ p [x; i] - at_ t [x; i]) /\
        q x = dot n (fun i => at_ p [x; i] - at_ t [x; i]) w) /\
    v = rsum b (fun x => 2 * q x + fst (sld n (fun i j => at_ V [x; i; j]))
                               + snd (sld n (fun i j => at_ V [x; i; j]))).
Proof.
  intros Hp Ht HV Hns. unfold lool_fn_unscaled. rewrite HV.
  destruct (bop_same Rminus p t ltac:(congruence)) as [r [Er [Sr Ar]]]. rewrite Er. cbn [bind].
  rewrite Hp in Sr, Ar.
  set (res := atleast_3d r).
  assert (Hres : shape res = [b; n; 1%nat]) by (unfold res, atleast_3d; rewrite Sr; reflexivity).
  assert (Ares : forall x i, (x < b)%nat -> (i < n)%nat -> at_ res [x; i; O] = at_ p [x; i] - at_ t [x; i]).
  { intros x i Hx Hi. unfold res, atleast_3d. rewrite Sr. cbn [at_]. apply Ar. apply inb2; assumption. }
  destruct (np_solve_ok ls V res [b] n 1) as [X EX].
  { exact HV. } { exact Hres. }
  { intros x Hx. apply inb_inv1 in Hx. destruct Hx as [x' [-> Hx]].
    apply (proj1 (proj2 Hls n 1%nat (slice2 V [x']) (slice2 res [x']))). apply Hns. assumption. }
  rewrite EX. cbn [bind].
  destruct (np_solve_inv ls V res X [b] n 1 HV Hres EX) as [SX AX].
  assert (Hsw : shape (swapaxes_last res) = [b] ++ [1%nat; n]).
  { unfold swapaxes_last. cbn [shape]. rewrite Hres. reflexivity. }
  destruct (np_matmul_inv (swapaxes_last res) X [b] 1 n 1 Hsw SX) as [C [EC [SC AC]]].
  rewrite EC. cbn [bind]. unfold slogdet_array. rewrite HV, Nat.eqb_refl. cbn [negb bind].
  set (ld := mkNd [2%nat; b] _).
  assert (Hsq : forall x, (x < b)%nat -> exists w, solves n (fun i j => at_ V [x; i; j]) w
        (fun i => at_ p [x; i] - at_ t [x; i]) /\
        at_ C [x; O; O] = dot n (fun i => at_ p [x; i] - at_ t [x; i]) w).
  { intros x Hx. destruct (AX [x] (inb1 _ _ Hx)) as [Y [EY HY]].
    exists (fun i => Y i O). split.
    - pose proof (proj1 Hls _ _ _ _ _ EY O ltac:(lia)) as Hsol.
      intros i Hi. specialize (Hsol i Hi). unfold slice2 in Hsol. cbn [app] in Hsol.
      rewrite Hsol. apply Ares; assumption.
    - change [x; O; O] with ([x] ++ [O; O])%list. rewrite (AC [x] O O). unfold dot. apply rsum_ext. intros l Hl.
      unfold swapaxes_last. cbn [at_ app]. unfold swap_last at 1. cbn [rev app].
      rewrite (Ares x l Hx Hl). f_equal. apply (HY l O). }
  exists (fun x => at_ C [x; O; O]).
  assert (Hadd : exists u, bop Rplus (squeeze C) ld = Ok u /\ shape u = [2%nat; b] /\
    forall k x, (k < 2)%nat -> (x < b)%nat -> at_ u [k; x] = at_ C [x; O; O] + at_ ld [k; x]).
  { unfold bop, squeeze, ld. cbn [shape at_]. rewrite SC. cbn [app].
    destruct (Nat.eq_dec b 1) as [->|Hb].
    - cbn [squeeze_shape filter Nat.eqb negb]. change (bshape [] [2%nat; 1%nat]) with (Some [2%nat; 1%nat]).
      eexists. split; [reflexivity|]. split; [reflexivity|]. intros k x Hk Hx. cbn [at_].
      assert (x = O) by lia. subst x. f_equal.
    - assert (E1 : squeeze_shape [b; 1%nat; 1%nat] = [b]).
      { unfold squeeze_shape. cbn. apply Nat.eqb_neq in Hb. rewrite Hb. reflexivity. }
      rewrite E1. assert (E2 : bshape [b] [2%nat; b] = Some [2%nat; b]).
      { unfold bshape. cbn. rewrite Nat.eqb_refl. reflexivity. }
      rewrite E2. eexists. split; [reflexivity|]. split; [reflexivity|]. intros k x Hk Hx. cbn [at_].
      change (bidx [b] [k; x]) with (bidx [b] ([k] ++ [x])).
      rewrite bidx_suffix by (apply inb1; assumption).
      rewrite bidx_id by (apply inb2; assumption).
      cbn [unsqueeze_idx]. apply Nat.eqb_neq in Hb. rewrite Hb. reflexivity. }
  destruct Hadd as [u [Eu [Su Au]]]. rewrite Eu. cbn [bind]. eexists. split; [reflexivity|].
  split; [exact Hsq|].
  rewrite nd_sum_total, Su. cbn [total rsum].
  assert (G : forall k, (k < 2)%nat -> rsum b (fun i => at_ u [k; i]) =
     rsum b (fun x => at_ C [x; O; O] + at_ ld [k; x])).
  { intros k Hk. apply rsum_ext. intros x Hx. apply Au; assumption. }
  rewrite !G by lia. rewrite Rplus_0_l, <- rsum_plus. apply rsum_ext. intros x Hx.
  unfold ld. cbn [at_]. unfold slice2. cbn [app]. ring.
Qed.

Lemma lool_block_refuted p t V b n :
  shape p = [b; n] -> shape t = [b; n] -> shape V = [b; n; n] -> (0 < b)%nat ->
  (forall x, (x < b)%nat -> pd n (fun i j => at_ V [x; i; j])) ->
  (forall x, (x < b)%nat -> fst (sld n (fun i j => at_ V [x; i; j])) = 1) ->
  exists v, lool_fn_unscaled ls sld p t V = Ok v /\
    forall d, (forall x, (x < b)%nat -> lool_block n (fun i j => at_ V [x; i; j])
        (fun i => at_ p [x; i] - at_ t [x; i]) (snd (sld n (fun i j => at_ V [x; i; j]))) (d x)) ->
      INR b <= v - rsum b d.
Proof.
  intros Hp Ht HV Hb Hpd Hsg.
  destruct (lool_block_value p t V b n Hp Ht HV) as [q [v [Hv [Hq Ev]]]].
  { intros x Hx. apply pd_nonsingular. apply Hpd. assumption. }
  exists v. split; [assumption|]. intros d Hd.
  assert (E : v - rsum b d = rsum b (fun x => q x + 1)).
  { rewrite Ev, <- rsum_minus. apply rsum_ext. intros x Hx. rewrite Hsg by assumption.
    destruct (Hd x Hx) as [w [Hw ->]]. destruct (Hq x Hx) as [w' [Hw' Eq]].
    assert (Edot : dot n (fun i => at_ p [x; i] - at_ t [x; i]) w
                 = dot n (fun i => at_ p [x; i] - at_ t [x; i]) w').
    { unfold dot. apply rsum_ext. intros i Hi. f_equal.
      refine (solves_unique n _ w w' _ (pd_nonsingular _ _ (Hpd x Hx)) Hw Hw' i Hi). }
    rewrite Edot, <- Eq. ring. }
  rewrite E, rsum_plus, rsum_const.
  assert (0 <= rsum b q); [|lra].
  apply rsum_nonneg. intros x Hx. destruct (Hq x Hx) as [w [Hw ->]].
  rewrite dot_comm, <- (quad_solves _ _ _ _ Hw).
  destruct (Req_dec (quad n (fun i j => at_ V [x; i; j]) w) 0) as [->|Hne]; [lra|].
  left. apply (Hpd x Hx).
  (* a nonzero form has a nonzero coordinate *)
  clear - Hne. destruct (classic_ex n w) as [H|H]; [assumption|].
  exfalso. apply Hne. unfold quad. rewrite (rsum_ext n _ (fun _ => 0)).
  - apply rsum_0.
  - intros i Hi. rewrite (rsum_ext n _ (fun _ => 0)); [apply rsum_0|]. intros j Hj.
    rewrite (H i Hi). ring.
Qed.
End Block.
