(** Shear covariance matrices are positive semidefinite: they are limits of finite-difference
    combinations of Gaussian Gram matrices. *)
From Coq Require Import Lia Lra.
From Coquelicot Require Import Coquelicot.
From Verif Require Import Base NdModel NdFacts RSum LinAlgSpec KernelSpec KernelProofs ShearModel ShearSpec ShearProofs.
Local Open Scope R_scope.

(** ** Fourth-order expansion of the exponential *)
Definition ecoef (k : nat) : R := / INR (fact k).

Lemma ecoef_pseries x : is_pseries ecoef x (exp x).
Proof. apply is_exp_Reals. Qed.

Lemma ecoef_cv : CV_radius ecoef = p_infty.
Proof. unfold ecoef. apply CV_radius_infinite_DAlembert.
  - intros n. apply Rinv_neq_0_compat, INR_fact_neq_0.
  - assert (L : is_lim_seq (fun n => / INR (S n)) 0).
    { replace (Finite 0) with (Rbar_inv p_infty) by reflexivity.
      apply is_lim_seq_inv; [|discriminate]. apply (is_lim_seq_incr_1 INR), is_lim_seq_INR. }
    apply is_lim_seq_ext with (2 := L). intros n.
    rewrite fact_simpl, mult_INR. rewrite Rabs_right.
    + field. split; [apply INR_fact_neq_0|apply not_0_INR; lia].
    + apply Rle_ge. assert (0 < INR (S n)) by (apply lt_0_INR; lia).
      assert (0 < INR (fact n)) by (apply lt_0_INR, lt_O_fact).
      unfold Rdiv. apply Rmult_le_pos; [left; apply Rinv_0_lt_compat; nra|].
      left. rewrite Rinv_inv. auto.
Qed.

Definition tail5 : R -> R := PSeries (PS_decr_n ecoef 5).

Lemma exp_tail5 u : exp u = 1 + u + u ^ 2 / 2 + u ^ 3 / 6 + u ^ 4 / 24 + u ^ 5 * tail5 u.
Proof.
  rewrite <- (is_pseries_unique _ _ _ (ecoef_pseries u)).
  rewrite (PSeries_decr_n ecoef 4 u) by (eexists; apply ecoef_pseries).
  unfold tail5. cbn [sum_f_R0]. unfold ecoef. cbn [fact Nat.mul Nat.add].
  replace (INR 1) with 1 by (cbn; lra). replace (INR 2) with 2 by (cbn; lra).
  replace (INR 6) with 6 by (cbn; lra). replace (INR 24) with 24 by (cbn; lra).
  field.
Qed.

Lemma tail5_continuous u : continuity_pt tail5 u.
Proof.
  apply (PSeries_continuity (PS_decr_n ecoef 5)).
  change (PS_decr_n ecoef 5) with (PS_decr_1 (PS_decr_1 (PS_decr_1 (PS_decr_1 (PS_decr_1 ecoef))))).
  rewrite !CV_radius_decr_1, ecoef_cv. exact I.
Qed.

Definition T4 (a b h : R) : R :=
  1 - a * h + (a ^ 2 / 2 - b) * h ^ 2 + (a * b - a ^ 3 / 6) * h ^ 3
  + (a ^ 4 / 24 - a ^ 2 * b / 2 + b ^ 2 / 2) * h ^ 4.

Definition rem4 (a b h : R) : R :=
  - (a + b * h) ^ 5 * tail5 (- h * (a + b * h))
  + ((- a * b ^ 2 / 2 + a ^ 3 * b / 6)
     + (- b ^ 3 / 6 + a ^ 2 * b ^ 2 / 4) * h + a * b ^ 3 / 6 * h ^ 2 + b ^ 4 / 24 * h ^ 3).

Lemma exp_T4 a b h : exp (- a * h - b * h ^ 2) = T4 a b h + h ^ 5 * rem4 a b h.
Proof.
  replace (- a * h - b * h ^ 2) with (- h * (a + b * h)) by ring.
  rewrite exp_tail5. unfold T4, rem4. set (t := tail5 _). clearbody t. field.
Qed.

Lemma rem4_continuous a b : continuity_pt (rem4 a b) 0.
Proof.
  unfold rem4.
  assert (C : continuity_pt (fun h => tail5 (- h * (a + b * h))) 0).
  { apply (continuity_pt_comp (fun h => - h * (a + b * h)) tail5); [reg|apply tail5_continuous]. }
  apply (continuity_pt_plus (fun h => - (a + b * h) ^ 5 * tail5 (- h * (a + b * h)))
    (fun h => (- a * b ^ 2 / 2 + a ^ 3 * b / 6)
     + (- b ^ 3 / 6 + a ^ 2 * b ^ 2 / 4) * h + a * b ^ 3 / 6 * h ^ 2 + b ^ 4 / 24 * h ^ 3)); [|reg].
  apply (continuity_pt_mult (fun h => - (a + b * h) ^ 5) (fun h => tail5 (- h * (a + b * h)))); [reg|exact C].
Qed.

(** ** Stencils: a second-order difference operator for each observable *)
(** Offsets of the nine points (-1..1)^2 and their weights (times h^2). *)
Definition off1 (s : nat) : R := INR (s / 3) - 1.
Definition off2 (s : nat) : R := INR (s mod 3) - 1.
Definition weight (o : observable) (s : nat) : R :=
  match o, s with
  | Convergence, (1 | 3 | 5 | 7)%nat => 1 / 2
  | Convergence, 4%nat => -2
  | Shear1, (1 | 7)%nat => 1 / 2
  | Shear1, (3 | 5)%nat => -1 / 2
  | Shear2, (0 | 8)%nat => 1 / 4
  | Shear2, (2 | 6)%nat => -1 / 4
  | _, _ => 0
  end.

Definition gauss2 (l u v : R) : R := exp (- (u ^ 2 + v ^ 2) / (2 * l)).

Lemma gauss2_shift l u v p q h : l <> 0 ->
  gauss2 l (u + h * p) (v + h * q) =
  gauss2 l u v * exp (- ((u * p + v * q) / l) * h - ((p ^ 2 + q ^ 2) / (2 * l)) * h ^ 2).
Proof.
  intros Hl. unfold gauss2. rewrite <- exp_plus. f_equal. field. auto.
Qed.

(** The finite-difference covariance with step [h]. *)
Definition fd (l : R) (o o' : observable) (u v h : R) : R :=
  rsum 9 (fun s => rsum 9 (fun t =>
    weight o s * weight o' t * gauss2 l (u + h * (off1 s - off1 t)) (v + h * (off2 s - off2 t)))) / h ^ 4.

Definition fdrem (l : R) (o o' : observable) (u v h : R) : R :=
  gauss2 l u v * rsum 9 (fun s => rsum 9 (fun t =>
    weight o s * weight o' t *
    rem4 ((u * (off1 s - off1 t) + v * (off2 s - off2 t)) / l)
         (((off1 s - off1 t) ^ 2 + (off2 s - off2 t) ^ 2) / (2 * l)) h)).

Lemma fd_poly l a c u v h : l <> 0 ->
  gauss2 l u v * rsum 9 (fun s => rsum 9 (fun t =>
    weight (obs a) s * weight (obs c) t *
    T4 ((u * (off1 s - off1 t) + v * (off2 s - off2 t)) / l)
       (((off1 s - off1 t) ^ 2 + (off2 s - off2 t) ^ 2) / (2 * l)) h)) = h ^ 4 * cform l a c u v.
Proof.
  intros Hl. unfold cform. fold (gauss2 l u v). set (g := gauss2 l u v). clearbody g.
  unfold kk_fn, kg1_fn, kg2_fn, g1g1_fn, g1g2_fn, g2g2_fn.
  replace 0.25 with (1 / 4) by lra; replace 0.5 with (1 / 2) by lra.
  assert (O : forall k, off1 k = INR (k / 3) - 1 /\ off2 k = INR (k mod 3) - 1) by (split; reflexivity).
  destruct (obs a), (obs c); cbn [rsum weight];
    rewrite ?Rmult_0_l, ?Rmult_0_r, ?Rmult_0_l, ?Rplus_0_l, ?Rplus_0_r;
    unfold off1, off2, T4;
    cbn [Nat.div Nat.modulo Nat.divmod fst snd INR Nat.sub];
    field; auto.
Qed.
