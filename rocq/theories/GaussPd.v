(** Gaussian Gram matrices of pairwise distinct points are positive definite. *)
From Coq Require Import Reals Lra Lia List.
From Verif Require Import Base RSum LinAlgSpec LinAlgFacts TensorSpec KernelSpec KernelProofs KernelLemmas.
Local Open Scope R_scope.

Section Null.
Variables (F n : nat) (x : nat -> nat -> R).
Definition powform (k : nat) (c : nat -> R) : R := quad n (fun i j => rsum F (fun f => x i f * x j f) ^ k) c.
Definition nullv (c : nat -> R) : Prop := forall k, powform k c = 0.

Lemma powform_nonneg k c : 0 <= powform k c.
Proof. apply dot_pow_psd. Qed.
Lemma powform_ext k c d : (forall i, (i < n)%nat -> c i = d i) -> powform k c = powform k d.
Proof. intros H. apply quad_ext; auto. Qed.
Lemma nullv_ext c d : (forall i, (i < n)%nat -> c i = d i) -> nullv c -> nullv d.
Proof. intros H N k. rewrite <- (powform_ext k c d H). apply N. Qed.
Lemma powform_S k c : powform (S k) c = rsum F (fun f => powform k (fun i => c i * x i f)).
Proof.
  unfold powform, quad. rewrite (rsum_swap F n). apply rsum_ext; intros i Hi.
  rewrite (rsum_swap F n). apply rsum_ext; intros j Hj. cbn [pow].
  replace (c i * (rsum F (fun f => x i f * x j f) * rsum F (fun f => x i f * x j f) ^ k) * c j)
    with ((c i * rsum F (fun f => x i f * x j f) ^ k * c j) * rsum F (fun f => x i f * x j f)) by ring.
  rewrite <- rsum_scal. apply rsum_ext; intros; ring.
Qed.
Lemma nullv_coord c f : (f < F)%nat -> nullv c -> nullv (fun i => c i * x i f).
Proof.
  intros Hf N k. pose proof (N (S k)) as E. rewrite powform_S in E.
  apply (rsum_zero_inv F (fun f => powform k (fun i => c i * x i f))); auto. intros; apply powform_nonneg.
Qed.
Lemma nullv_scal c a : nullv c -> nullv (fun i => a * c i).
Proof.
  intros N k. transitivity (a * a * powform k c); [|rewrite (N k); ring].
  unfold powform, quad. rewrite <- rsum_scal. apply rsum_ext. intros i _. rewrite <- rsum_scal. apply rsum_ext. intros j _. ring.
Qed.
Lemma nullv_plus c d : nullv c -> nullv d -> nullv (fun i => c i + d i).
Proof.
  intros N M k.
  assert (E : powform k (fun i => c i + d i) + powform k (fun i => c i - d i) = 2 * powform k c + 2 * powform k d).
  { unfold powform, quad. rewrite <- !rsum_scal, <- !rsum_plus. apply rsum_ext. intros i _.
    rewrite <- !rsum_scal, <- !rsum_plus. apply rsum_ext. intros j _. ring. }
  rewrite (N k), (M k) in E. pose proof (powform_nonneg k (fun i => c i + d i)). pose proof (powform_nonneg k (fun i => c i - d i)). lra.
Qed.
Lemma nullv_zero : nullv (fun _ => 0).
Proof.
  intros k. unfold powform, quad. rewrite (rsum_ext n _ (fun _ => 0)); [apply rsum_0|]. intros i _.
  rewrite (rsum_ext n _ (fun _ => 0)); [apply rsum_0|]. intros; ring.
Qed.
Lemma nullv_rsum m (g : nat -> nat -> R) : (forall f, (f < m)%nat -> nullv (g f)) -> nullv (fun i => rsum m (fun f => g f i)).
Proof.
  induction m as [|m IH]; intros H; cbn [rsum]; [apply nullv_zero|]. apply nullv_plus; auto.
Qed.
Lemma nullv_shift c f t : (f < F)%nat -> nullv c -> nullv (fun i => c i * (x i f - t)).
Proof.
  intros Hf N. eapply nullv_ext; [|apply (nullv_plus (fun i => c i * x i f) (fun i => (- t) * c i));
    [apply nullv_coord; auto|apply nullv_scal; auto]]. intros i _. cbn beta. ring.
Qed.
Lemma nullv_sqdist c j : nullv c -> nullv (fun i => c i * sqdist F (x i) (x j)).
Proof.
  intros N. eapply nullv_ext; [|apply (nullv_rsum F (fun f i => c i * (x i f - x j f) * (x i f - x j f)))].
  - intros i _. cbn beta. unfold sqdist. rewrite <- rsum_scal. apply rsum_ext. intros f _. ring.
  - intros f Hf. apply (nullv_shift (fun i => c i * (x i f - x j f))); auto. apply nullv_shift; auto.
Qed.
Definition lprod (l : list R) : R := fold_right Rmult 1 l.
Lemma nullv_prod c l : nullv c -> nullv (fun i => c i * lprod (map (fun j => sqdist F (x i) (x j)) l)).
Proof.
  intros N. induction l as [|j l IH]; cbn [map lprod fold_right].
  - eapply nullv_ext; [|exact N]. intros; ring.
  - eapply nullv_ext; [|apply (nullv_sqdist _ j IH)]. intros i _. cbn beta. unfold lprod. ring.
Qed.
Lemma nullv_sum c : nullv c -> rsum n c = 0.
Proof.
  intros N. specialize (N O). unfold powform, quad in N.
  assert (E : rsum n (fun i => rsum n (fun j => c i * (rsum F (fun f => x i f * x j f) ^ 0) * c j)) = rsum n c * rsum n c).
  { rewrite <- rsum_scal_r. apply rsum_ext; intros i Hi. rewrite <- rsum_scal. apply rsum_ext; intros; cbn [pow]; ring. }
  rewrite E in N. nra.
Qed.
Lemma lprod_zero l a : In a l -> a = 0 -> lprod l = 0.
Proof.
  induction l as [|b l IH]; intros I Z; [destruct I|]. destruct I as [->|I]; cbn [lprod fold_right].
  - subst; ring.
  - unfold lprod in IH. rewrite (IH I Z). ring.
Qed.
Lemma lprod_nonzero l : (forall a, In a l -> a <> 0) -> lprod l <> 0.
Proof.
  induction l as [|b l IH]; intros H; cbn; [lra|]. apply Rmult_integral_contrapositive_currified; [apply H; left; auto|].
  apply IH. intros; apply H; right; auto.
Qed.
Lemma nullv_distinct c : (forall i j, (i < n)%nat -> (j < n)%nat -> i <> j -> sqdist F (x i) (x j) <> 0) ->
  nullv c -> forall m, (m < n)%nat -> c m = 0.
Proof.
  intros DI N m Hm. set (l := filter (fun j => negb (Nat.eqb j m)) (seq 0 n)).
  pose proof (nullv_sum _ (nullv_prod c l N)) as S.
  assert (E : rsum n (fun i => c i * lprod (map (fun j => sqdist F (x i) (x j)) l)) =
              c m * lprod (map (fun j => sqdist F (x m) (x j)) l)).
  { rewrite <- (rsum_delta n m (fun i => c i * lprod (map (fun j => sqdist F (x i) (x j)) l)) Hm).
    apply rsum_ext. intros i Hi. destruct (Nat.eq_dec i m) as [->|D]; [rewrite delta_refl; ring|].
    rewrite (lprod_zero _ (sqdist F (x i) (x i))); [ring| |].
    - apply (in_map (fun j => sqdist F (x i) (x j)) l i). apply filter_In. split; [apply in_seq; lia|].
      apply Bool.negb_true_iff, Nat.eqb_neq. auto.
    - unfold sqdist. rewrite (rsum_ext F _ (fun _ => 0)); [apply rsum_0|]. intros; ring. }
  rewrite E in S. apply Rmult_integral in S. destruct S as [S|S]; auto. exfalso. revert S. apply lprod_nonzero.
  intros a Ha. apply in_map_iff in Ha. destruct Ha as [j [<- Hj]]. apply filter_In in Hj. destruct Hj as [Hj1 Hj2].
  apply in_seq in Hj1. apply Bool.negb_true_iff, Nat.eqb_neq in Hj2. apply DI; auto; lia.
Qed.

Lemma exp_part_lower k N c : (k <= N)%nat ->
  / INR (fact k) * powform k c <= quad n (fun i j => exp_part N (rsum F (fun f => x i f * x j f))) c.
Proof.
  intros L. induction L as [|N L IH].
  - unfold exp_part. destruct k as [|k].
    + right. unfold powform, quad. rewrite <- rsum_scal. apply rsum_ext. intros i _. rewrite <- rsum_scal. apply rsum_ext. intros j _. cbn. field.
    + assert (E : quad n (fun i j => exp_part (S k) (rsum F (fun f => x i f * x j f))) c =
                  quad n (fun i j => exp_part k (rsum F (fun f => x i f * x j f))) c + / INR (fact (S k)) * powform (S k) c).
      { unfold powform, quad. rewrite <- rsum_scal, <- rsum_plus. apply rsum_ext. intros i _. rewrite <- rsum_scal, <- rsum_plus.
        apply rsum_ext. intros j _. unfold exp_part. cbn [sum_f_R0]. ring. }
      unfold exp_part in E |- *. rewrite E. pose proof (exp_part_psd F x n k c) as P. unfold exp_part in P. lra.
  - apply (Rle_trans _ _ _ IH).
    assert (E : quad n (fun i j => exp_part (S N) (rsum F (fun f => x i f * x j f))) c =
                quad n (fun i j => exp_part N (rsum F (fun f => x i f * x j f))) c + / INR (fact (S N)) * powform (S N) c).
    { unfold powform, quad. rewrite <- rsum_scal, <- rsum_plus. apply rsum_ext. intros i _. rewrite <- rsum_scal, <- rsum_plus.
      apply rsum_ext. intros j _. unfold exp_part. cbn [sum_f_R0]. ring. }
    rewrite E. pose proof (powform_nonneg (S N) c).
    assert (0 < / INR (fact (S N))) by (apply Rinv_0_lt_compat, lt_0_INR, lt_O_fact). nra.
Qed.
Lemma exp_dot_lower k c : / INR (fact k) * powform k c <= quad n (fun i j => exp (rsum F (fun f => x i f * x j f))) c.
Proof.
  assert (CV : Un_cv (fun N => quad n (fun i j => exp_part N (rsum F (fun f => x i f * x j f))) c)
                 (quad n (fun i j => exp (rsum F (fun f => x i f * x j f))) c)).
  { unfold quad. apply (cv_rsum n (fun i N => rsum n (fun j => c i * exp_part N (rsum F (fun f => x i f * x j f)) * c j))).
    intros i Hi. apply (cv_rsum n (fun j N => c i * exp_part N (rsum F (fun f => x i f * x j f)) * c j)).
    intros j Hj.
    assert (E : forall u, c i * u * c j = (c i * c j) * u) by (intros; ring).
    rewrite E.
    intros e He. destruct (cv_scal (c i * c j) _ _ (exp_part_cv (rsum F (fun f => x i f * x j f))) e He) as [N HN].
    exists N. intros m Hm. rewrite E. apply HN; auto. }
  destruct (Rle_dec (/ INR (fact k) * powform k c) (quad n (fun i j => exp (rsum F (fun f => x i f * x j f))) c)) as [L|L]; auto.
  exfalso. apply Rnot_le_lt in L. destruct (CV _ (Rlt_Rminus _ _ L)) as [N HN].
  specialize (HN (Nat.max k N) (Nat.le_max_r k N)). pose proof (exp_part_lower k (Nat.max k N) c (Nat.le_max_l k N)) as B.
  unfold R_dist in HN. apply Rabs_def2 in HN. lra.
Qed.
Lemma exp_dot_pd : (forall i j, (i < n)%nat -> (j < n)%nat -> i <> j -> sqdist F (x i) (x j) <> 0) ->
  pd n (fun i j => exp (rsum F (fun f => x i f * x j f))).
Proof.
  intros DI c [m [Hm Hc]]. pose proof (exp_dot_psd F x n c) as P.
  destruct P as [P|P]; auto. exfalso. apply Hc. apply nullv_distinct; auto.
  intros k. pose proof (exp_dot_lower k c) as L. rewrite <- P in L. pose proof (powform_nonneg k c).
  assert (0 < / INR (fact k)) by (apply Rinv_0_lt_compat, lt_0_INR, lt_O_fact). nra.
Qed.
End Null.

(** Gaussians of pairwise distinct points. *)
Lemma gauss_gram_pd F (x : nat -> nat -> R) n :
  (forall i j, (i < n)%nat -> (j < n)%nat -> i <> j -> sqdist F (x i) (x j) <> 0) ->
  pd n (fun i j => exp (- sqdist F (x i) (x j) / 2)).
Proof.
  intros DI c [m [Hm Hc]].
  set (w := fun i => exp (- rsum F (fun f => x i f ^ 2) / 2)).
  pose proof (exp_dot_pd F n x DI (fun i => c i * w i)) as P.
  assert (E0 : quad n (fun i j => exp (- sqdist F (x i) (x j) / 2)) c = quad n (fun i j => exp (rsum F (fun f => x i f * x j f))) (fun i => c i * w i)).
  { unfold quad. apply rsum_ext. intros i Hi. apply rsum_ext. intros j Hj.
    assert (E : exp (- sqdist F (x i) (x j) / 2) = w i * exp (rsum F (fun f => x i f * x j f)) * w j).
    { unfold w. rewrite <- !exp_plus. f_equal. unfold sqdist.
      assert (Q : rsum F (fun f => (x i f - x j f) ^ 2) =
         rsum F (fun f => x i f ^ 2) + rsum F (fun f => x j f ^ 2) - 2 * rsum F (fun f => x i f * x j f)).
      { rewrite <- rsum_scal, <- rsum_plus, <- rsum_minus. apply rsum_ext; intros; ring. }
      rewrite Q. field. }
    rewrite E. ring. }
  rewrite E0. apply P. exists m. split; auto.
  apply Rmult_integral_contrapositive_currified; auto. unfold w. pose proof (exp_pos (- rsum F (fun f => x m f ^ 2) / 2)). lra.
Qed.
