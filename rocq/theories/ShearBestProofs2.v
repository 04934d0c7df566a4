(** Proofs about lensing predictions: covariance matrices, more observations, more noise, superposition, existence of the moments. *)
From Coq Require Import Lia Lra.
From Verif Require Import Base BaseFacts NdModel NdFacts RSum LinAlgModel LinAlgSpec LinAlgFacts NoiseModel GPModel MuyGPSModel GPSpec WellPosedProofs
  HyperModel NamedModel NamedSpec KernelModel TensorModel TensorSpec KernelSpec KernelLemmas FlowSpec LossModel LossSpec ChassisModel WorkSpec ShearModel ShearSpec ShearProofs ShearGram ShearFlowSpec
  ShearFlow ShearEdge ShearTrainModel ShearTrainSpec ShearTrainProofs ShearTrainProofs2 DenseShearProofs3 SkyProofs SkyProofs2 BestSpec BestProofs BestGram
  ShearBestSpec ShearBestProofs.
Local Open Scope R_scope.

(** ** The joint matrix of the three observables at the point and of the observations *)
Section J.
Variables (km : shear_model) (sn : bool) (l v : R) (train : nd R) (k : nat) (rows : nat -> nat) (point : nat -> R).
Hypothesis Hk : (0 < k)%nat.
Hypothesis Hl : 0 < l.
Hypothesis Hv : 0 < v.
Hypothesis SNF : sn = true -> km = Full33.
Notation N := (observed km * k)%nat.
Notation A := (matA km sn l v train k rows).
Notation C := (stacked_cov l (unobserved km) k (pts train rows)).
Notation c := (crs km l train k rows point).
Notation P := (prior l point).

Lemma rsum_split a n f : rsum (a + n) f = rsum a f + rsum n (fun i => f (a + i)%nat).
Proof.
  induction n as [|n IH]; [rewrite Nat.add_0_r; cbn; ring|]. rewrite Nat.add_succ_r. cbn [rsum]. rewrite IH. ring.
Qed.

Definition job (i : nat) : nat := if (i <? 3)%nat then i else (unobserved km + (i - 3) / k)%nat.
Definition jpt (i : nat) : nat -> R := if (i <? 3)%nat then point else pts train rows ((i - 3) mod k)%nat.
Definition jcov (i j : nat) : R := shear_cov l (obs (job i)) (obs (job j)) (jpt i) (jpt j).
Definition jnoise (i : nat) : R := if (i <? 3)%nat then 0 else obs_noise sn v k (i - 3).

Lemma jcov_psd M : psd M jcov.
Proof.
  apply (psd_ext M (fun i j => cform l (job i) (job j) (jpt i 0%nat - jpt j 0%nat) (jpt i 1%nat - jpt j 1%nat))).
  - intros i j _ _. unfold jcov. symmetry. apply cov_closed. lra.
  - apply shear_gram_psd. auto.
Qed.
Lemma jcov_sym i j : jcov i j = jcov j i.
Proof. unfold jcov. apply cov_sym_obs. lra. Qed.

Definition jvec (t : nat -> R) (w : nat -> R) (i : nat) : R := if (i <? 3)%nat then t i else - w (i - 3)%nat.
Lemma jquad t w : quad (3 + N) jcov (jvec t w) =
  rsum 3 (fun o => rsum 3 (fun o' => t o * P o o' * t o')) - 2 * rsum 3 (fun o => t o * dot N w (c o)) + quad N C w.
Proof.
  unfold quad. rewrite rsum_split. rewrite (rsum_ext 3 _ (fun o => rsum 3 (fun o' => t o * P o o' * t o') - t o * dot N w (c o))).
  2:{ intros o Ho. rewrite rsum_split. unfold Rminus. apply f_equal2.
    - apply rsum_ext. intros o' Ho'. unfold jvec, jcov, job, jpt. assert (o <? 3 = true)%nat as -> by (apply Nat.ltb_lt; auto).
      assert (o' <? 3 = true)%nat as -> by (apply Nat.ltb_lt; auto). reflexivity.
    - unfold dot. transitivity (rsum N (fun q => - t o * (w q * c o q))); [|rewrite rsum_scal; ring]. apply rsum_ext. intros q Hq. unfold jvec, jcov, job, jpt. assert (o <? 3 = true)%nat as -> by (apply Nat.ltb_lt; auto).
      assert (3 + q <? 3 = false)%nat as -> by (apply Nat.ltb_ge; lia). replace (3 + q - 3)%nat with q by lia.
      unfold crs, stacked_cross. rewrite (cov_sym_obs l (obs o) _ point) by lra. ring. }
  rewrite (rsum_ext N _ (fun p => rsum N (fun q => w p * C p q * w q) - rsum 3 (fun o => t o * (w p * c o p)))).
  2:{ intros p Hp. rewrite rsum_split. rewrite Rplus_comm. unfold Rminus. apply f_equal2.
    - apply rsum_ext. intros q Hq. unfold jvec, jcov, job, jpt.
      assert (3 + q <? 3 = false)%nat as -> by (apply Nat.ltb_ge; lia). assert (3 + p <? 3 = false)%nat as -> by (apply Nat.ltb_ge; lia).
      replace (3 + q - 3)%nat with q by lia. replace (3 + p - 3)%nat with p by lia. unfold stacked_cov. ring.
    - transitivity (rsum 3 (fun o => -1 * (t o * (w p * c o p)))); [|rewrite rsum_scal; ring]. apply rsum_ext. intros o Ho.
      unfold jvec, jcov, job, jpt. assert (o <? 3 = true)%nat as -> by (apply Nat.ltb_lt; auto).
      assert (3 + p <? 3 = false)%nat as -> by (apply Nat.ltb_ge; lia). replace (3 + p - 3)%nat with p by lia.
      unfold crs, stacked_cross. ring. }
  rewrite !rsum_minus, (rsum_swap N 3). rewrite (rsum_ext 3 (fun j => rsum N _) (fun o => t o * dot N w (c o))).
  2:{ intros o Ho. rewrite rsum_scal. reflexivity. }
  ring.
Qed.

(** The posterior covariance matrix, from the weights. *)
Variable u : nat -> nat -> R.
Hypothesis SO : forall o, (o < 3)%nat -> solves N A (u o) (c o).
Notation V := (fun o o' => P o o' - dot N (u o) (c o')).

Lemma explained_sym o o' : (o < 3)%nat -> (o' < 3)%nat -> dot N (u o) (c o') = dot N (u o') (c o).
Proof.
  intros Ho Ho'. unfold dot.
  rewrite (rsum_ext N (fun i => u o i * c o' i) (fun p => rsum N (fun q => u o p * A p q * u o' q))).
  2:{ intros p Hp. rewrite <- (SO o' Ho' p Hp), <- rsum_scal. apply rsum_ext. intros; ring. }
  rewrite rsum_swap. apply rsum_ext. intros q Hq. rewrite <- (SO o Ho q Hq), <- rsum_scal. apply rsum_ext. intros p Hp.
  rewrite (matA_sym km sn l v train k rows Hl p q) by auto. ring.
Qed.
Lemma explained_quad t : rsum 3 (fun o => rsum 3 (fun o' => t o * dot N (u o) (c o') * t o')) = quad N A (fun p => rsum 3 (fun o => t o * u o p)).
Proof.
  set (w := fun p => rsum 3 (fun o => t o * u o p)).
  assert (SW : solves N A w (fun p => rsum 3 (fun o => t o * c o p))).
  { intros p Hp. unfold w. rewrite (rsum_ext N _ (fun q => rsum 3 (fun o => t o * (A p q * u o q)))).
    2:{ intros q Hq. rewrite <- rsum_scal. apply rsum_ext. intros; ring. }
    rewrite rsum_swap. apply rsum_ext. intros o Ho. rewrite rsum_scal. f_equal. apply SO; auto. }
  rewrite (quad_solves _ _ _ _ SW). unfold dot, w.
  rewrite (rsum_ext N (fun i => rsum 3 (fun o => t o * u o i) * rsum 3 (fun o => t o * c o i))
    (fun p => rsum 3 (fun o => rsum 3 (fun o' => t o * t o' * (u o p * c o' p))))).
  2:{ intros p Hp. rewrite <- rsum_scal_r. apply rsum_ext. intros o Ho. rewrite <- rsum_scal. apply rsum_ext. intros; ring. }
  rewrite (rsum_swap N 3). apply rsum_ext. intros o Ho. rewrite (rsum_swap N 3). apply rsum_ext. intros o' Ho'.
  rewrite rsum_scal. ring.
Qed.
Lemma cross_term t : rsum 3 (fun o => t o * dot N (fun p => rsum 3 (fun o => t o * u o p)) (c o)) =
  quad N A (fun p => rsum 3 (fun o => t o * u o p)).
Proof.
  rewrite <- explained_quad. rewrite (rsum_swap 3 3). apply rsum_ext. intros o Ho. unfold dot.
  rewrite (rsum_ext N (fun i => rsum 3 (fun o0 => t o0 * u o0 i) * c o i) (fun p => rsum 3 (fun o' => t o' * (u o' p * c o p)))).
  2:{ intros p Hp. rewrite <- rsum_scal_r. apply rsum_ext. intros; ring. }
  rewrite (rsum_swap N 3), <- rsum_scal. apply rsum_ext. intros o' Ho'. rewrite rsum_scal. ring.
Qed.

Lemma covariance_pd t : (exists o, (o < 3)%nat /\ t o <> 0) -> 0 < rsum 3 (fun o => rsum 3 (fun o' => t o * V o o' * t o')).
Proof.
  intros NZ. set (w := fun p => rsum 3 (fun o => t o * u o p)).
  assert (E : rsum 3 (fun o => rsum 3 (fun o' => t o * V o o' * t o')) = quad (3 + N) jcov (jvec t w) + rsum N (fun p => obs_noise sn v k p * (w p * w p))).
  { rewrite jquad. fold w. pose proof (cross_term t) as CT. fold w in CT. rewrite CT.
    assert (EA : quad N A w = quad N C w + rsum N (fun p => obs_noise sn v k p * (w p * w p))).
    { unfold matA. rewrite (quad_ext N _ (fun i j => C i j + delta i j * obs_noise sn v k i) w w); auto.
      2:{ intros i j _ _. unfold plus_diag, delta. destruct (Nat.eqb i j); ring. }
      rewrite quad_plus, quad_diag. reflexivity. }
    pose proof (explained_quad t) as EQ. fold w in EQ.
    rewrite (rsum_ext 3 (fun o => rsum 3 (fun o' => t o * V o o' * t o')) (fun o => rsum 3 (fun o' => t o * P o o' * t o') - rsum 3 (fun o' => t o * dot N (u o) (c o') * t o'))).
    2:{ intros o Ho. rewrite <- rsum_minus. apply rsum_ext. intros; ring. }
    rewrite rsum_minus, EQ, EA. ring. }
  eapply Rlt_le_trans; [|right; symmetry; exact E]. clear E. pose proof (jcov_psd (3 + N) (jvec t w)) as J.
  assert (D : forall p, (p < N)%nat -> 0 < obs_noise sn v k p) by (intros; apply obs_noise_pos; auto).
  destruct (classic_zero N w) as [Z|(p & Hp & NW)].
  - rewrite jquad. assert (QZ : quad N C w = 0) by (apply quad_zero; exact Z).
    assert (DZ : rsum 3 (fun o => t o * dot N w (c o)) = 0).
    { rewrite (rsum_ext 3 _ (fun _ => 0)); [apply rsum_0|]. intros o Ho. unfold dot. rewrite (rsum_ext N _ (fun _ => 0)); [rewrite rsum_0; ring|].
      intros q Hq. rewrite (Z q Hq). ring. }
    assert (NZs : rsum N (fun p => obs_noise sn v k p * (w p * w p)) = 0).
    { rewrite (rsum_ext N _ (fun _ => 0)); [apply rsum_0|]. intros q Hq. rewrite (Z q Hq). ring. }
    rewrite QZ, DZ, NZs.
    assert (PP : rsum 3 (fun o => rsum 3 (fun o' => t o * P o o' * t o')) = rsum 3 (fun o => P o o * (t o * t o))).
    { apply rsum_ext. intros o Ho. rewrite (rsum_ext 3 _ (fun o' => delta o' o * (t o * P o o' * t o'))).
      2:{ intros o' Ho'. unfold delta. destruct (Nat.eqb_spec o' o) as [->|NE]; [ring|]. unfold prior. rewrite prior_cross by (auto; lra). ring. }
      rewrite rsum_delta by auto. ring. }
    rewrite PP. assert (PO : forall o, (o < 3)%nat -> 0 <= P o o * (t o * t o)).
    { intros o Ho. apply Rmult_le_pos; [left; apply prior_pos; auto|]. pose proof (pow2_ge_0 (t o)). cbn [pow] in *. nra. }
    destruct NZ as (o & Ho & NT). pose proof (rsum_term_le 3 (fun o => P o o * (t o * t o)) o PO Ho) as L. cbn beta in L.
    assert (0 < P o o * (t o * t o)).
    { apply Rmult_lt_0_compat; [apply prior_pos; auto|]. nra. }
    lra.
  - assert (PO : forall q, (q < N)%nat -> 0 <= obs_noise sn v k q * (w q * w q)) by (intros q Hq; specialize (D q Hq); nra).
    pose proof (rsum_term_le N (fun q => obs_noise sn v k q * (w q * w q)) p PO Hp) as L. cbn beta in L.
    assert (0 < obs_noise sn v k p * (w p * w p)). { apply Rmult_lt_0_compat; [auto|]. nra. }
    lra.
Qed.
Lemma explained_nonneg t : 0 <= rsum 3 (fun o => rsum 3 (fun o' => t o * (P o o' - V o o') * t o')).
Proof.
  rewrite (rsum_ext 3 _ (fun o => rsum 3 (fun o' => t o * dot N (u o) (c o') * t o'))).
  2:{ intros o Ho. apply rsum_ext. intros; ring. }
  rewrite explained_quad. destruct (classic_zero N (fun p => rsum 3 (fun o => t o * u o p))) as [Z|NZ].
  - rewrite quad_zero; auto. lra.
  - left. apply (matA_pd km sn l v train k rows Hl Hv). exact NZ.
Qed.
End J.

Lemma lens_moments_exist km sn l v sc train k rows point : (0 < k)%nat -> 0 < l -> 0 < v -> (sn = true -> km = Full33) -> 0 <= sc ->
  exists outcomes pi f y, lens_moments outcomes pi f y km sn l v sc train k rows point.
Proof.
  intros Hk Hl Hv SNF SC. set (N := (observed km * k)%nat).
  set (M := (3 + N)%nat). set (jc := jcov km l train k rows point). set (jd := jnoise sn v k).
  set (A := fun i j => sc * plus_diag jc jd i j).
  destruct (gram_of_psd M A) as [L HL].
  { intros i j Hi Hj. unfold A, plus_diag. unfold jc. rewrite (jcov_sym km l train k rows point Hl i j), (Nat.eqb_sym i j).
    destruct (Nat.eqb_spec j i) as [->|]; reflexivity. }
  { intros t. assert (E : quad M A t = sc * quad M (plus_diag jc jd) t).
    { unfold quad. rewrite <- rsum_scal. apply rsum_ext. intros i Hi. rewrite <- rsum_scal. apply rsum_ext. intros; unfold A; ring. }
    rewrite E. apply Rmult_le_pos; [exact SC|].
    rewrite (quad_ext M _ (fun i j => jc i j + delta i j * jd i) t t); auto.
    2:{ intros i j _ _. unfold plus_diag, delta. destruct (Nat.eqb i j); ring. }
    rewrite quad_plus, quad_diag. pose proof (jcov_psd km l train k rows point Hl M t) as P. fold jc in P.
    assert (0 <= rsum M (fun i => jd i * (t i * t i))); [|lra]. apply rsum_nonneg. intros i Hi.
    assert (0 <= jd i). { unfold jd, jnoise. destruct (i <? 3)%nat; [lra|]. left. apply obs_noise_pos. auto. } nra. }
  assert (NP : 0 < INR M) by (apply lt_0_INR; unfold M; lia).
  set (h := sqrt (INR M)). assert (HH : h * h = INR M) by (apply sqrt_sqrt; lra).
  assert (EE : forall i j, (i < M)%nat -> (j < M)%nat -> expect M (fun _ => / INR M) (fun s => h * L i s * (h * L j s)) = A i j).
  { intros i j Hi Hj. rewrite HL by auto. unfold expect. apply rsum_ext. intros s Hs.
    replace (/ INR M * (h * L i s * (h * L j s))) with (/ INR M * (h * h) * (L i s * L j s)) by ring. rewrite HH. field. lra. }
  assert (J3 : forall o, (o < 3)%nat -> job km k o = o /\ jpt train k rows point o = point /\ jd o = 0).
  { intros o Ho. unfold job, jpt, jd, jnoise. assert (o <? 3 = true)%nat as -> by (apply Nat.ltb_lt; auto). auto. }
  assert (JN : forall a i, (unobserved km <= a < 3)%nat -> (i < k)%nat -> let p := (3 + ((a - unobserved km) * k + i))%nat in
    job km k p = a /\ jpt train k rows point p = feature train (rows i) /\ jd p = lens_noise sn v a /\ (p < M)%nat).
  { intros a i Ha Hi p. pose proof (flat_index km k Hk a i Ha Hi) as FI. unfold job, jpt, jd, jnoise.
    assert (p <? 3 = false)%nat as -> by (apply Nat.ltb_ge; apply Nat.le_add_r). replace (p - 3)%nat with ((a - unobserved km) * k + i)%nat by (subst p; generalize ((a - unobserved km) * k + i)%nat; clear; intros; lia).
    rewrite (noise_flat km sn v k Hk SNF) by (exact FI).
    destruct (divmod_k k Hk (a - unobserved km) i Hi) as [-> ->]. replace (unobserved km + (a - unobserved km))%nat with a by lia.
    split; [reflexivity|]. split; [reflexivity|]. split; [reflexivity|]. subst p. unfold M, N. apply Nat.add_lt_mono_l. exact FI. }
  exists M, (fun _ => / INR M), (fun o s => h * L o s), (fun a i s => h * L (3 + ((a - unobserved km) * k + i))%nat s). split.
  - split; [rewrite rsum_const; field; lra|]. intros s _. apply Rlt_le, Rinv_0_lt_compat. auto.
  - intros o o' Ho Ho'. rewrite EE by (unfold M; lia). unfold A, plus_diag, jc, jcov.
    destruct (J3 o Ho) as (-> & -> & ->). destruct (J3 o' Ho') as (-> & -> & _). destruct (o =? o')%nat; ring.
  - intros a i o Ha Hi Ho. destruct (JN a i Ha Hi) as (E1 & E2 & _ & HB). rewrite EE; [|unfold M; lia|exact HB]. unfold A, plus_diag, jc, jcov.
    rewrite E1, E2. destruct (J3 o Ho) as (-> & -> & _).
    assert (o =? 3 + ((a - unobserved km) * k + i) = false)%nat as -> by (apply Nat.eqb_neq; generalize ((a - unobserved km) * k + i)%nat; clear - Ho; intros; lia).
    rewrite (cov_sym_obs l (obs o) (obs a) point) by lra. ring.
  - intros a i a' i' Ha Hi Ha' Hi'. destruct (JN a i Ha Hi) as (E1 & E2 & E3 & HB). destruct (JN a' i' Ha' Hi') as (E1' & E2' & _ & HB').
    rewrite EE by auto. unfold A, plus_diag, jc, jcov. rewrite E1, E2, E3, E1', E2'. unfold lens_obs_cov. f_equal. f_equal.
    destruct (Nat.eqb_spec (3 + ((a - unobserved km) * k + i)) (3 + ((a' - unobserved km) * k + i'))) as [E|NE].
    + assert (Q : ((a - unobserved km) * k + i = (a' - unobserved km) * k + i')%nat) by exact (proj1 (Nat.add_cancel_l _ _ 3%nat) E).
      destruct (divmod_k k Hk (a - unobserved km) i Hi) as [D1 D2]. destruct (divmod_k k Hk (a' - unobserved km) i' Hi') as [D1' D2'].
      rewrite Q in D1, D2. assert (a = a')%nat by (clear - D1 D1' Ha Ha'; lia). assert (i = i')%nat by (clear - D2 D2'; lia). subst a' i'. rewrite !Nat.eqb_refl. reflexivity.
    + destruct (Nat.eqb_spec a a') as [->|]; [|reflexivity]. destruct (Nat.eqb_spec i i') as [->|]; [|reflexivity]. contradiction.
Qed.
