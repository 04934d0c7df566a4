(** Positive semidefiniteness of shear Gram matrices (limit argument). *)
From Coq Require Import Lia Lra.
From Coquelicot Require Import Coquelicot.
From Verif Require Import Base NdModel NdFacts RSum LinAlgSpec TensorSpec KernelSpec KernelProofs ShearModel ShearSpec ShearProofs ShearPsd.
Local Open Scope R_scope.

Lemma fd_expand l a c u v h : l <> 0 -> h <> 0 ->
  fd l (obs a) (obs c) u v h = cform l a c u v + h * fdrem l (obs a) (obs c) u v h.
Proof.
  intros Hl Hh. unfold fd, fdrem.
  rewrite (rsum_ext 9 _ (fun s => gauss2 l u v * rsum 9 (fun t => weight (obs a) s * weight (obs c) t *
      T4 ((u * (off1 s - off1 t) + v * (off2 s - off2 t)) / l)
         (((off1 s - off1 t) ^ 2 + (off2 s - off2 t) ^ 2) / (2 * l)) h)
    + h ^ 5 * gauss2 l u v * rsum 9 (fun t => weight (obs a) s * weight (obs c) t *
      rem4 ((u * (off1 s - off1 t) + v * (off2 s - off2 t)) / l)
         (((off1 s - off1 t) ^ 2 + (off2 s - off2 t) ^ 2) / (2 * l)) h))).
  2:{ intros s _. rewrite <- !rsum_scal, <- rsum_plus. apply rsum_ext. intros t _.
      rewrite gauss2_shift by auto. rewrite exp_T4. ring. }
  rewrite rsum_plus, !rsum_scal, fd_poly by auto. field. auto.
Qed.

Lemma cont_rsum n (f : nat -> R -> R) x : (forall i, (i < n)%nat -> continuity_pt (f i) x) ->
  continuity_pt (fun h => rsum n (fun i => f i h)) x.
Proof.
  induction n as [|n IH]; intros H; cbn [rsum].
  - apply continuity_pt_const. intros ? ?; reflexivity.
  - apply (continuity_pt_plus (fun h => rsum n (fun i => f i h)) (f n)); [apply IH; auto|apply H; lia].
Qed.

Lemma cont_scal c (f : R -> R) x : continuity_pt f x -> continuity_pt (fun h => c * f h) x.
Proof. intros H. apply (continuity_pt_scal f c x H). Qed.

Lemma fdrem_continuous l o o' u v : continuity_pt (fdrem l o o' u v) 0.
Proof.
  unfold fdrem. apply cont_scal. apply (cont_rsum 9 (fun s h => rsum 9 (fun t => weight o s * weight o' t *
    rem4 ((u * (off1 s - off1 t) + v * (off2 s - off2 t)) / l)
         (((off1 s - off1 t) ^ 2 + (off2 s - off2 t) ^ 2) / (2 * l)) h))).
  intros s _. apply (cont_rsum 9 (fun t h => weight o s * weight o' t *
    rem4 ((u * (off1 s - off1 t) + v * (off2 s - off2 t)) / l)
         (((off1 s - off1 t) ^ 2 + (off2 s - off2 t) ^ 2) / (2 * l)) h)).
  intros t _. apply cont_scal, rem4_continuous.
Qed.

(** The finite-difference matrices are Gaussian Gram matrices in disguise. *)
Lemma fd_psd l n (ob : nat -> observable) (x : nat -> nat -> R) h : 0 < l -> h <> 0 ->
  psd n (fun i j => fd l (ob i) (ob j) (x i 0%nat - x j 0%nat) (x i 1%nat - x j 1%nat) h).
Proof.
  intros Hl Hh c.
  set (pt := fun k f => / sqrt l * match f with
      | O => x (k / 9)%nat 0%nat + h * off1 (k mod 9) | _ => x (k / 9)%nat 1%nat + h * off2 (k mod 9) end).
  pose proof (gauss_gram_psd 2 pt (n * 9) (fun k => c (k / 9)%nat * weight (ob (k / 9)%nat) (k mod 9) / h ^ 2)) as P.
  unfold quad in *. rewrite rsum_mul in P.
  assert (E : forall i s, (i < n)%nat -> (s < 9)%nat -> ((i * 9 + s) / 9 = i /\ (i * 9 + s) mod 9 = s)%nat).
  { intros i s _ Hs. split.
    - rewrite Nat.div_add_l by lia. rewrite Nat.div_small; lia.
    - rewrite Nat.add_comm, Nat.mod_add by lia. apply Nat.mod_small; auto. }
  eapply Rle_trans; [exact P|]. right. apply rsum_ext. intros i Hi.
  rewrite (rsum_ext 9 _ (fun s => rsum n (fun j => rsum 9 (fun t =>
     c i * (weight (ob i) s * weight (ob j) t * gauss2 l (x i 0%nat - x j 0%nat + h * (off1 s - off1 t))
       (x i 1%nat - x j 1%nat + h * (off2 s - off2 t)) / h ^ 4) * c j)))).
  2:{ intros s Hs. rewrite rsum_mul. apply rsum_ext. intros j Hj. apply rsum_ext. intros t Ht.
      destruct (E i s Hi Hs) as [-> ->], (E j t Hj Ht) as [-> ->].
      assert (G : exp (- sqdist 2 (pt (i * 9 + s)%nat) (pt (j * 9 + t)%nat) / 2) =
        gauss2 l (x i 0%nat - x j 0%nat + h * (off1 s - off1 t)) (x i 1%nat - x j 1%nat + h * (off2 s - off2 t))).
      { unfold gauss2, sqdist, pt. cbn [rsum].
        destruct (E i s Hi Hs) as [-> ->], (E j t Hj Ht) as [-> ->]. f_equal.
        pose proof (sqrt_sqrt l (Rlt_le _ _ Hl)) as Q. assert (sqrt l <> 0) by (intros Z; rewrite Z in Q; lra).
        set (r := sqrt l) in *. rewrite <- Q. field. auto. }
      rewrite G. field. auto. }
  rewrite (rsum_swap 9 n). apply rsum_ext. intros j Hj.
  unfold fd, Rdiv. rewrite <- rsum_scal_r, <- rsum_scal, <- rsum_scal_r. apply rsum_ext. intros s Hs.
  rewrite <- rsum_scal_r, <- rsum_scal, <- rsum_scal_r. apply rsum_ext. intros t Ht. ring.
Qed.

Lemma cv_inv : Un_cv (fun N => / (INR N + 1)) 0.
Proof.
  apply is_lim_seq_Reals. replace (Finite 0) with (Rbar_inv p_infty) by reflexivity.
  apply is_lim_seq_inv; [|discriminate].
  apply (is_lim_seq_plus INR (fun _ => 1) p_infty 1); [apply is_lim_seq_INR|apply is_lim_seq_const|reflexivity].
Qed.

Lemma fd_limit l a c u v : l <> 0 ->
  Un_cv (fun N => fd l (obs a) (obs c) u v (/ (INR N + 1))) (cform l a c u v).
Proof.
  intros Hl.
  assert (Z : forall N, / (INR N + 1) <> 0).
  { intros N. apply Rinv_neq_0_compat. pose proof (pos_INR N). lra. }
  pose proof (continuity_seq (fun h => cform l a c u v + h * fdrem l (obs a) (obs c) u v h)
    (fun N => / (INR N + 1)) 0) as C.
  replace (cform l a c u v) with (cform l a c u v + 0 * fdrem l (obs a) (obs c) u v 0) by ring.
  intros e He. destruct (C ltac:(apply (continuity_pt_plus (fun _ => cform l a c u v) (fun h => h * fdrem l (obs a) (obs c) u v h));
    [apply continuity_pt_const; intros ? ?; reflexivity|
     apply (continuity_pt_mult (fun h => h) (fdrem l (obs a) (obs c) u v)); [apply continuity_pt_id|apply fdrem_continuous]]) cv_inv e He) as [N HN].
  exists N. intros m Hm. specialize (HN m Hm). rewrite fd_expand by auto. exact HN.
Qed.

(** Covariances of arbitrary lists of (observable, point) pairs. *)
Lemma shear_gram_psd l n (ob : nat -> nat) (x : nat -> nat -> R) : 0 < l ->
  psd n (fun i j => cform l (ob i) (ob j) (x i 0%nat - x j 0%nat) (x i 1%nat - x j 1%nat)).
Proof.
  intros Hl c.
  apply (cv_nonneg (fun N => quad n (fun i j => fd l (obs (ob i)) (obs (ob j)) (x i 0%nat - x j 0%nat) (x i 1%nat - x j 1%nat) (/ (INR N + 1))) c)).
  - intros N. apply (fd_psd l n (fun i => obs (ob i))); auto. apply Rinv_neq_0_compat. pose proof (pos_INR N). lra.
  - unfold quad.
    apply (cv_rsum n (fun i N => rsum n (fun j => c i * fd l (obs (ob i)) (obs (ob j)) (x i 0%nat - x j 0%nat) (x i 1%nat - x j 1%nat) (/ (INR N + 1)) * c j))).
    intros i _.
    apply (cv_rsum n (fun j N => c i * fd l (obs (ob i)) (obs (ob j)) (x i 0%nat - x j 0%nat) (x i 1%nat - x j 1%nat) (/ (INR N + 1)) * c j)).
    intros j _.
    assert (E : forall u, c i * u * c j = (c i * c j) * u) by (intros; ring). rewrite E.
    intros e He. destruct (cv_scal (c i * c j) _ _ (fd_limit l (ob i) (ob j) (x i 0%nat - x j 0%nat) (x i 1%nat - x j 1%nat) ltac:(lra)) e He) as [N HN].
    exists N. intros m Hm. rewrite E. apply HN; auto.
Qed.
