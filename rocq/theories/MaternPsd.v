(** Positive semidefiniteness of the half-integer Matern covariances, in any dimension. *)
From Coq Require Import Reals Lra Lia.
From Coquelicot Require Import Coquelicot.
From Verif Require Import Base RSum LinAlgSpec TensorSpec KernelSpec KernelProofs KernelLemmas MixtureProofs.
Local Open Scope R_scope.

Lemma rsum_is_RInt n (f : nat -> R -> R) a b (l : nat -> R) :
  (forall i, (i < n)%nat -> is_RInt (f i) a b (l i)) -> is_RInt (fun u => rsum n (fun i => f i u)) a b (rsum n l).
Proof.
  induction n as [|n IH]; intros H; cbn [rsum].
  - pose proof (is_RInt_const (V := R_NormedModule) a b 0) as I.
    change (is_RInt (fun _ => 0) a b ((b - a) * 0)) in I. rewrite Rmult_0_r in I. exact I.
  - apply (is_RInt_plus (fun u => rsum n (fun i => f i u)) (f n)); [apply IH|]; auto.
Qed.
Lemma rsum_lim n (f : nat -> nat -> R) (l : nat -> R) :
  (forall i, (i < n)%nat -> is_lim_seq (f i) (l i)) -> is_lim_seq (fun m => rsum n (fun i => f i m)) (rsum n l).
Proof.
  induction n as [|n IH]; intros H; cbn [rsum].
  - apply is_lim_seq_const.
  - apply (is_lim_seq_plus' (fun m => rsum n (fun i => f i m)) (f n)); [apply IH|]; auto.
Qed.

(** Quadratic forms of a mixture. *)
Definition mixq (p n : nat) (D : nat -> nat -> R) (c : nat -> R) (u : R) : R :=
  rsum n (fun i => rsum n (fun j => c i * c j * (u ^ (2 * p) * mixd (D i j) u))).
Lemma mixq_gauss p n D c u : mixq p n D c u =
  u ^ (2 * p) * exp (- (u * u)) * quad n (fun i j => exp (- (D i j / u * (D i j / u)))) c.
Proof.
  unfold mixq, quad. rewrite <- rsum_scal. apply rsum_ext. intros i _. rewrite <- rsum_scal. apply rsum_ext. intros j _.
  unfold mixd, Rminus. rewrite exp_plus. ring.
Qed.
Lemma mixq_int p n D c a b : (p <= 2)%nat -> 0 < a -> a <= b ->
  is_RInt (mixq p n D c) a b (rsum n (fun i => rsum n (fun j => c i * c j * (anti p (D i j) b - anti p (D i j) a)))).
Proof.
  intros Hp A B. unfold mixq. apply rsum_is_RInt. intros i _. apply rsum_is_RInt. intros j _.
  apply (is_RInt_scal (fun u => u ^ (2 * p) * mixd (D i j) u) a b (c i * c j)). apply mix_int; auto.
Qed.
Lemma bn_ge1 n : / bn n <= bn n /\ 0 < / bn n.
Proof.
  pose proof (bn_pos n). split; [|apply Rinv_0_lt_compat; lra].
  apply (Rle_trans _ 1); auto. rewrite <- Rinv_1. apply Rinv_le_contravar; lra.
Qed.

Lemma mixture_quad_lim : exists L, 0 < L /\ forall p n D c, (p <= 2)%nat -> (forall i j, (i < n)%nat -> (j < n)%nat -> 0 <= D i j) ->
  is_lim_seq (fun m => rsum n (fun i => rsum n (fun j => c i * c j * (anti p (D i j) (bn m) - anti p (D i j) (/ bn m)))))
    (L * quad n (fun i j => mixval p (D i j)) c).
Proof.
  destruct mixture_limit as (L & P & ML). exists L. split; auto. intros p n D c Hp HD.
  replace (L * quad n (fun i j => mixval p (D i j)) c) with
    (rsum n (fun i => rsum n (fun j => c i * c j * (L * mixval p (D i j))))).
  - apply rsum_lim. intros i Hi. apply rsum_lim. intros j Hj.
    apply (is_lim_seq_scal_l _ (c i * c j) (Finite (L * mixval p (D i j)))). apply ML; auto.
  - unfold quad. rewrite <- rsum_scal. apply rsum_ext. intros i _. rewrite <- rsum_scal. apply rsum_ext. intros j _. ring.
Qed.

Lemma mixture_psd p n D : (p <= 2)%nat -> (forall i j, (i < n)%nat -> (j < n)%nat -> 0 <= D i j) ->
  (forall u, 0 < u -> psd n (fun i j => exp (- (D i j / u * (D i j / u))))) ->
  psd n (fun i j => mixval p (D i j)).
Proof.
  intros Hp HD G c. destruct mixture_quad_lim as (L & P & ML). specialize (ML p n D c Hp HD).
  assert (0 <= L * quad n (fun i j => mixval p (D i j)) c).
  { apply (is_lim_seq_le (fun _ => 0) _ (Finite 0) (Finite _)) in ML; [exact ML| |apply is_lim_seq_const].
    intros m. destruct (bn_ge1 m) as [B1 B2].
    apply (is_RInt_ge_0 (mixq p n D c) (/ bn m) (bn m)); auto.
    - apply mixq_int; auto.
    - intros u Hu. rewrite mixq_gauss. pose proof (G u ltac:(lra) c). pose proof (exp_pos (- (u * u))).
      pose proof (pow_le u (2 * p) ltac:(lra)). apply Rmult_le_pos; auto. apply Rmult_le_pos; lra. }
  apply (Rmult_le_reg_l L); lra.
Qed.

(** The same, strictly. *)
Lemma mixq_cont p n D c u : 0 < u -> continuous (mixq p n D c) u.
Proof.
  intros U. unfold mixq.
  assert (S : forall n (f : nat -> R -> R), (forall i, continuous (f i) u) -> continuous (fun u => rsum n (fun i => f i u)) u).
  { clear. intros n f H. induction n; cbn [rsum]; [apply continuous_const|]. apply (continuous_plus (fun u => rsum n (fun i => f i u)) (f n)); auto. }
  apply S. intros i. apply S. intros j. apply (continuous_scal_r (c i * c j) (fun u => u ^ (2 * p) * mixd (D i j) u)). apply weight_cont; auto.
Qed.
Lemma mixture_pd p n D : (p <= 2)%nat -> (forall i j, (i < n)%nat -> (j < n)%nat -> 0 <= D i j) ->
  (forall u, 0 < u -> pd n (fun i j => exp (- (D i j / u * (D i j / u))))) ->
  pd n (fun i j => mixval p (D i j)).
Proof.
  intros Hp HD G c Hc. destruct mixture_quad_lim as (L & P & ML). specialize (ML p n D c Hp HD).
  assert (POS : forall u, 0 < u -> 0 < mixq p n D c u).
  { intros u Hu. rewrite mixq_gauss. pose proof (G u Hu c Hc). pose proof (exp_pos (- (u * u))).
    pose proof (pow_lt u (2 * p) Hu). apply Rmult_lt_0_compat; auto. apply Rmult_lt_0_compat; auto. }
  set (d := RInt (mixq p n D c) (/ 2) 2).
  assert (D0 : 0 < d).
  { apply RInt_gt_0; [lra| |]; intros u Hu; [apply POS; lra|apply mixq_cont; lra]. }
  assert (d <= L * quad n (fun i j => mixval p (D i j)) c).
  { apply (is_lim_seq_le_loc (fun _ => d) _ (Finite d) (Finite _)) in ML; [exact ML| |apply is_lim_seq_const].
    exists 1%nat. intros m Hm.
    assert (B : 2 <= bn m). { unfold bn. apply le_INR in Hm. cbn [INR] in Hm. lra. }
    assert (I2 : / bn m <= / 2) by (apply Rinv_le_contravar; lra).
    destruct (bn_ge1 m) as [B1 B2].
    rewrite <- (is_RInt_unique (V := R_CompleteNormedModule) _ _ _ _ (mixq_int p n D c (/ bn m) (bn m) Hp B2 B1)).
    assert (EX : forall a b, 0 < a -> a <= b -> ex_RInt (mixq p n D c) a b) by (intros; eexists; apply mixq_int; auto).
    assert (C1 : RInt (mixq p n D c) (/ bn m) (bn m) =
                 RInt (mixq p n D c) (/ bn m) (/ 2) + (d + RInt (mixq p n D c) 2 (bn m))).
    { unfold d. pose proof (RInt_Chasles (mixq p n D c) (/ bn m) (/ 2) (bn m)) as E1.
      pose proof (RInt_Chasles (mixq p n D c) (/ 2) 2 (bn m)) as E2.
      specialize (E1 (EX (/ bn m) (/ 2) ltac:(lra) ltac:(lra)) (EX (/ 2) (bn m) ltac:(lra) ltac:(lra))).
      specialize (E2 (EX (/ 2) 2 ltac:(lra) ltac:(lra)) (EX 2 (bn m) ltac:(lra) ltac:(lra))).
      symmetry in E1, E2. eapply eq_trans; [exact E1|]. apply (f_equal (fun x => RInt (mixq p n D c) (/ bn m) (/ 2) + x)). exact E2. }
    rewrite C1.
    assert (P1 : 0 <= RInt (mixq p n D c) (/ bn m) (/ 2)).
    { apply RInt_ge_0; [lra|apply EX; lra|]. intros u Hu. left. apply POS. lra. }
    assert (P2 : 0 <= RInt (mixq p n D c) 2 (bn m)).
    { apply RInt_ge_0; [lra|apply EX; lra|]. intros u Hu. left. apply POS. lra. }
    lra. }
  apply (Rmult_lt_reg_l L); lra.
Qed.
