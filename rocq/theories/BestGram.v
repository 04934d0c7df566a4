(** Positive semidefinite matrices are matrices of second moments. *)
From Coq Require Import Lia Lra.
From Verif Require Import Base BaseFacts NdModel RSum NoiseModel LinAlgSpec LinAlgFacts GPSpec TensorSpec KernelLemmas FlowSpec LibSpec LibProofs BestSpec BestProofs.
Local Open Scope R_scope.

Lemma quad_S n A x : symmetric (S n) A -> quad (S n) A x =
  A O O * (x O * x O) + 2 * (x O * rsum n (fun i => A O (S i) * x (S i))) + quad n (fun i j => A (S i) (S j)) (fun i => x (S i)).
Proof.
  intros SY. unfold quad. rewrite rsum_S_l, rsum_S_l.
  rewrite (rsum_ext n (fun i => rsum (S n) (fun j => x (S i) * A (S i) j * x j))
    (fun i => x (S i) * A (S i) O * x O + rsum n (fun j => x (S i) * A (S i) (S j) * x (S j)))) by (intros; apply rsum_S_l).
  rewrite rsum_plus.
  rewrite (rsum_ext n (fun i => x (S i) * A (S i) O * x O) (fun i => x O * (A O (S i) * x (S i)))).
  2:{ intros i Hi. rewrite (SY (S i) O) by lia. ring. }
  rewrite rsum_scal. rewrite (rsum_ext n (fun i => x O * A O (S i) * x (S i)) (fun i => x O * (A O (S i) * x (S i)))) by (intros; ring).
  rewrite rsum_scal. ring.
Qed.

Lemma gram_of_psd : forall n A, symmetric n A -> psd n A ->
  exists L : nat -> nat -> R, forall i j, (i < n)%nat -> (j < n)%nat -> A i j = rsum n (fun s => L i s * L j s).
Proof.
  induction n as [|n IH]; intros A SY P; [exists (fun _ _ => 0); intros; lia|].
  set (a := A O O). set (b := fun i => A O (S i)). set (C := fun i j => A (S i) (S j)).
  assert (Q : forall t y, 0 <= a * (t * t) + 2 * (t * rsum n (fun i => b i * y i)) + quad n C y).
  { intros t y. pose proof (P (fun i => match i with O => t | S i => y i end)) as H. rewrite quad_S in H by auto. exact H. }
  assert (Z : forall y, (forall i, (i < n)%nat -> y i = 0) -> quad n C y = 0).
  { intros y H. unfold quad. rewrite (rsum_ext n _ (fun _ => 0)); [apply rsum_0|]. intros i Hi.
    rewrite (rsum_ext n _ (fun _ => 0)); [apply rsum_0|]. intros j Hj. rewrite (H i Hi). ring. }
  assert (A0 : 0 <= a).
  { pose proof (Q 1 (fun _ => 0)) as H. rewrite (Z (fun _ => 0)) in H by auto.
    rewrite (rsum_ext n _ (fun _ => 0)) in H by (intros; ring). rewrite rsum_0 in H. lra. }
  set (r := fun i => if Req_EM_T a 0 then 0 else b i / sqrt a).
  assert (Hb : forall i, (i < n)%nat -> b i = sqrt a * r i).
  { intros i Hi. unfold r. destruct (Req_EM_T a 0) as [E|NE].
    - rewrite Rmult_0_r. destruct (Req_dec (b i) 0) as [|NB]; [auto|exfalso].
      pose proof (Q (- (C i i + 1) / (2 * b i)) (fun j => delta j i)) as H. rewrite E in H.
      rewrite (rsum_ext n _ (fun j => delta j i * b j)) in H by (intros; ring). rewrite rsum_delta in H by auto.
      assert (QC : quad n C (fun j => delta j i) = C i i).
      { unfold quad. rewrite (rsum_ext n _ (fun k => delta k i * rsum n (fun j => delta j i * C k j))).
        2:{ intros k Hk. rewrite <- rsum_scal. apply rsum_ext. intros; ring. }
        rewrite (rsum_delta n i (fun k => rsum n (fun j => delta j i * C k j))) by auto. apply (rsum_delta n i (C i)). auto. }
      rewrite QC in H. assert (T : 2 * (- (C i i + 1) / (2 * b i) * b i) = - (C i i + 1)) by (field; auto). lra.
    - assert (0 < sqrt a) by (apply sqrt_lt_R0; lra). field. lra. }
  destruct (IH (fun i j => C i j - r i * r j)) as [L HL].
  { intros i j Hi Hj. unfold C. rewrite (SY (S i) (S j)) by lia. ring. }
  { intros y. set (m := rsum n (fun i => r i * y i)).
    assert (E : quad n (fun i j => C i j - r i * r j) y = quad n C y - m * m).
    { unfold quad. rewrite (rsum_ext n _ (fun i => rsum n (fun j => y i * C i j * y j) - (r i * y i) * m)).
      2:{ intros i Hi. unfold m. rewrite <- rsum_scal, <- rsum_minus. apply rsum_ext. intros; ring. }
      rewrite rsum_minus, rsum_scal_r. unfold m. ring. }
    rewrite E. assert (EB : rsum n (fun i => b i * y i) = sqrt a * m).
    { unfold m. rewrite <- rsum_scal. apply rsum_ext. intros i Hi. rewrite Hb by auto. ring. }
    destruct (Req_EM_T a 0) as [E0|N0].
    - assert (M0 : m = 0). { unfold m, r. destruct (Req_EM_T a 0); [|contradiction]. rewrite (rsum_ext n _ (fun _ => 0)); [apply rsum_0|intros; ring]. }
      pose proof (Q 0 y) as H. rewrite M0. lra.
    - pose proof (Q (- m / sqrt a) y) as H. rewrite EB in H. assert (SP : 0 < sqrt a) by (apply sqrt_lt_R0; lra).
      assert (SS : sqrt a * sqrt a = a) by (apply sqrt_sqrt; lra).
      assert (T1 : a * (- m / sqrt a * (- m / sqrt a)) = m * m) by (rewrite <- SS at 1; field; lra).
      assert (T2 : 2 * (- m / sqrt a * (sqrt a * m)) = - (2 * (m * m))) by (field; lra). lra. }
  exists (fun i s => match i, s with O, O => sqrt a | O, S _ => 0 | S i, O => r i | S i, S s => L i s end).
  assert (SS : sqrt a * sqrt a = a) by (apply sqrt_sqrt; lra).
  intros i j Hi Hj. rewrite rsum_S_l. destruct i as [|i], j as [|j].
  - rewrite (rsum_ext n _ (fun _ => 0)) by (intros; ring). rewrite rsum_0, SS. unfold a. ring.
  - rewrite (rsum_ext n _ (fun _ => 0)) by (intros; ring). rewrite rsum_0. rewrite <- Hb by lia. unfold b. ring.
  - rewrite (rsum_ext n _ (fun _ => 0)) by (intros; ring). rewrite rsum_0. rewrite Rmult_comm, <- Hb by lia. unfold b. rewrite (SY O (S i)) by lia. ring.
  - rewrite <- HL by lia. unfold C. ring.
Qed.

Section M.
Variables (gamma : R -> R) (kv : R -> R -> R).
Lemma moments_exist K cur kw m sc test train x n q : lk_ok K (feature_count train) cur kw ->
  0 <= sc -> (forall i, (i < n)%nat -> 0 <= noise_at m None x i) ->
  exists outcomes pi f y, model_moments outcomes pi f y (lk_cov gamma kv K (feature_count train) cur kw) m sc test train x n q.
Proof.
  intros OK SC NN. set (k := lk_cov gamma kv K (feature_count train) cur kw).
  set (pt := fun i => match i with O => feature test x | S i => feature train (q i) end).
  set (d := fun i => match i with O => 0 | S i => noise_at m None x i end).
  set (A := fun i j => sc * plus_diag (fun i j => k (fun f => pt i f - pt j f)) d i j).
  assert (SYK : forall i j, k (fun f => pt i f - pt j f) = k (fun f => pt j f - pt i f)).
  { intros i j. pose proof (lk_cov_sym gamma kv K (feature_count train) cur kw (mkNd [2; feature_count train]%nat
      (fun idx => match idx with [O; f] => pt i f | [_; f] => pt j f | _ => 0 end)) 0 1) as H.
    unfold kcov, feature in H. exact H. }
  destruct (gram_of_psd (S n) A) as [L HL].
  { intros i j Hi Hj. unfold A, plus_diag. rewrite SYK, (Nat.eqb_sym j i). destruct (Nat.eqb_spec i j) as [->|]; reflexivity. }
  { intros v. assert (E : quad (S n) A v = sc * quad (S n) (plus_diag (fun i j => k (fun f => pt i f - pt j f)) d) v).
    { unfold quad. rewrite <- rsum_scal. apply rsum_ext. intros i Hi. rewrite <- rsum_scal. apply rsum_ext. intros; unfold A; ring. }
    rewrite E. apply Rmult_le_pos; [exact SC|].
    rewrite (quad_ext (S n) _ (fun i j => k (fun f => pt i f - pt j f) + delta i j * d i) v v); auto.
    2:{ intros i j _ _. unfold plus_diag, delta. destruct (Nat.eqb i j); ring. }
    rewrite quad_plus, quad_diag. pose proof (lk_cov_psd gamma kv K (feature_count train) cur kw pt (S n) OK v) as P. fold k in P.
    assert (0 <= rsum (S n) (fun i => d i * (v i * v i))); [|lra]. apply rsum_nonneg. intros i Hi.
    assert (0 <= d i). { destruct i as [|i]; cbn [d]; [lra|apply NN; lia]. } nra. }
  assert (NP : 0 < INR (S n)) by (apply lt_0_INR; lia).
  set (h := sqrt (INR (S n))). assert (HH : h * h = INR (S n)) by (apply sqrt_sqrt; lra).
  assert (EE : forall i j, (i < S n)%nat -> (j < S n)%nat -> expect (S n) (fun _ => / INR (S n)) (fun s => h * L i s * (h * L j s)) = A i j).
  { intros i j Hi Hj. rewrite HL by auto. unfold expect. apply rsum_ext. intros s Hs.
    replace (/ INR (S n) * (h * L i s * (h * L j s))) with (/ INR (S n) * (h * h) * (L i s * L j s)) by ring. rewrite HH. field. lra. }
  exists (S n), (fun _ => / INR (S n)), (fun s => h * L O s), (fun j s => h * L (S j) s). split.
  - split; [rewrite rsum_const; field; lra|]. intros s _. apply Rlt_le, Rinv_0_lt_compat. auto.
  - rewrite EE by lia. unfold A, plus_diag. cbn [pt d Nat.eqb]. unfold kcov. ring.
  - intros j Hj. rewrite EE by lia. unfold A, plus_diag. cbn [pt d Nat.eqb]. unfold kcov. ring.
  - intros i j Hi Hj. rewrite EE by lia. unfold A, plus_diag, obs_cov. cbn [pt d Nat.eqb]. reflexivity.
Qed.
End M.
