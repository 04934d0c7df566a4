(** Property theorem C104 for every library kernel, the Bessel form of the Matern kernel included. *)
From Coq Require Import Lia Lra.
From Verif Require Import Base BaseFacts NdModel NdFacts RSum LinAlgModel LinAlgSpec LinAlgFacts Gauss GPModel NoiseModel MuyGPSModel GPSpec GPTheorems
  ScaleSpec TensorModel TensorSpec TensorProofs HyperModel HyperSpec NamedModel NamedSpec KernelModel KernelSpec KernelProofs KernelLemmas
  NeighborsModel NeighborsSpec NeighborsProofs FlowModel FlowSpec FlowProofs PointwiseSpec LibSpec
  MultiModel DriverModel WorkModel WorkSpec WorkProofs WorkLemmas WorkProps BestSpec LocalSpec FarSpec SmoothProofs ContSpec ContProofs BatchProofs Cont3Spec Cont3Proofs.
Local Open Scope R_scope.
Local Open Scope string_scope.

(** Wherever a prediction succeeds it also succeeds for all nearby values of the length scales, the smoothness, the noise and the variance
    scale, and the predicted means and variances are as close as one likes: for every kernel of the library, every noise model, every test row
    (ties among the neighbours included). *)
Theorem C104_continuous : forall gamma kv ls, exact_solver ls -> forall knn hnsw dist, sklearn_ok knn dist ->
  forall en method kw w g K cur test train targets N M n ex mean var,
  lower method = "exact" -> euclidean_kw kw -> nn_init en (rows_of train) n method kw = Ok w -> (0 < n <= N /\ 0 < M)%nat ->
  dataset test M -> dataset train N -> ndim test = ndim train -> feature_count test = feature_count train ->
  kernel_usable K (feature_count train) cur -> continuous_special gamma kv -> shape targets = N :: ex -> no_coincidence ex [n] ->
  shape (gp_Kout g) = [] -> at_ (gp_Kout g) [] = 1 -> noise_fits (gp_noise g) M n ->
  regress_any ls knn hnsw (Univariate (lib_model gamma kv g K cur)) test train w targets = Ok (mean, var) ->
  forall eps, 0 < eps -> exists d, 0 < d /\ forall g' cur',
    values_close cur cur' d -> noise_close (gp_noise g) (gp_noise g') M n d -> Rabs (gp_var_scale g' - gp_var_scale g) < d ->
    noise_fits (gp_noise g') M n -> shape (gp_Kout g') = [] -> at_ (gp_Kout g') [] = 1 ->
    exists mean' var',
      regress_any ls knn hnsw (Univariate (lib_model gamma kv g' K cur')) test train w targets = Ok (mean', var') /\
      shape mean' = shape mean /\ shape var' = shape var /\
      forall x, (x < M)%nat -> Rabs (at_ var' [x] - at_ var [x]) < eps /\ forall e, inb ex e -> Rabs (at_ mean' (x :: e) - at_ mean (x :: e)) < eps.
Proof. exact params_cont_any. Qed.
Print Assumptions C104_continuous.

(** Continuous functions with the textbook values at 1/2, 3/2 and 5/2, and a Matern kernel with optimized smoothness. *)
Definition ex104_gamma (nu : R) : R := sqrt PI * (1 - (nu - 1/2) / 2 + 3 / 8 * ((nu - 1/2) * (nu - 3/2))).
Definition ex104_kv (nu x : R) : R :=
  sqrt (PI / (2 * x)) * exp (- x) * (1 + (nu - 1/2) * (nu + 1/2) / 2 / x + 3 * ((nu - 1/2) * (nu - 3/2)) / 2 / x ^ 2).
Definition ex104_K : libkernel := LMatern (Iso L2 (mkNamed "length_scale" 0)) (mkNamed "smoothness" 1) (mkParam (Fin (1/2)) (Fin (1/4), Fin 2) false).
Definition ex104_cur (l : nat) : R := match l with O => 1 | _ => 1/2 end.

Lemma ex104_special : continuous_special ex104_gamma ex104_kv.
Proof.
  split.
  - intros nu N. split.
    + unfold ex104_gamma. apply Rmult_integral_contrapositive_currified; [apply Rgt_not_eq, sqrt_lt_R0, PI_RGT_0|].
      pose proof (pow2_ge_0 (nu - 1/2 - 7/6)) as Q. apply Rgt_not_eq. nra.
    + unfold ex104_gamma. apply derivable_continuous_pt. reg.
  - intros nu x N X eps EPS.
    set (near := fun d (t : R * R) => Rabs (fst t - nu) < d /\ Rabs (snd t - x) < d).
    assert (MON : forall d d' t, near d t -> d <= d' -> near d' t) by (intros d d' t [A B] L; split; lra).
    assert (T1 : tends near fst nu) by (intros e E; exists e; split; [exact E|]; intros t [A _]; exact A).
    assert (T2 : tends near snd x) by (intros e E; exists e; split; [exact E|]; intros t [_ A]; exact A).
    assert (T : tends near (fun t => ex104_kv (fst t) (snd t)) (ex104_kv nu x)).
    { unfold ex104_kv. assert (XN : x <> 0) by lra. assert (X2 : x ^ 2 <> 0) by (apply pow_nonzero; exact XN).
      assert (C : forall c, tends near (fun _ => c) c) by (intros; apply tends_const).
      assert (M1 : forall c, tends near (fun t => fst t - c) (nu - c)) by (intros c; apply (tends_minus near MON); auto).
      assert (P1 : forall c, tends near (fun t => fst t + c) (nu + c)) by (intros c; apply (tends_plus near MON); auto).
      apply (tends_mult near MON); [apply (tends_mult near MON)|apply (tends_plus near MON); [apply (tends_plus near MON)|]].
      - apply (tends_sqrt near); [left; apply Rmult_lt_0_compat; [apply PI_RGT_0|apply Rinv_0_lt_compat; lra]|].
        apply (tends_div near MON); [lra|apply C|apply (tends_scal near); exact T2].
      - apply (tends_exp near), (tends_opp near). exact T2.
      - apply C.
      - apply (tends_div near MON); [exact XN| |exact T2]. apply (tends_div near MON); [lra| |apply C]. apply (tends_mult near MON); auto.
      - apply (tends_div near MON); [exact X2| |apply (tends_sq near); exact T2].
        apply (tends_div near MON); [lra| |apply C]. apply (tends_scal near). apply (tends_mult near MON); auto. }
    destruct (T eps EPS) as (d & D & H). exists d. split; [exact D|]. intros nu' x' A B. apply (H (nu', x')). split; auto.
Qed.
Lemma ex104_half : half_integer_facts ex104_gamma ex104_kv.
Proof.
  unfold half_integer_facts, ex104_gamma, ex104_kv. split; [field|]. split; [field|]. split; [field|].
  intros x X. assert (x <> 0) by lra. repeat split; (apply f_equal || idtac); field; lra.
Qed.

Example C104_bessel_sat : half_integer_facts ex104_gamma ex104_kv /\ continuous_special ex104_gamma ex104_kv /\
  lk_def ex104_K = Iso L2 (mkNamed "length_scale" 0) /\
  kernel_usable ex104_K (feature_count ex80_train) ex104_cur /\
  forall hnsw, exists w mean var, nn_init false (rows_of ex80_train) 2 "exact" [] = Ok w /\
    regress_any gauss ref_knn hnsw (Univariate (lib_model ex104_gamma ex104_kv ex80_gp ex104_K ex104_cur)) ex80_test ex80_train w ex80_targets = Ok (mean, var) /\
    forall d, 0 < d -> d < 1 / 4 ->
      let g' := mkGp (HomoscedasticNoise (d / 2)) FixedScale 1 (1 + d / 2) (mkNd [] (fun _ => 1)) in
      values_close ex104_cur (fun l => ex104_cur l - d / 2) d /\ noise_close (gp_noise ex80_gp) (gp_noise g') 2 2 d /\
      Rabs (gp_var_scale g' - gp_var_scale ex80_gp) < d /\ noise_fits (gp_noise g') 2 2.
Proof.
  split; [exact ex104_half|]. split; [exact ex104_special|]. split; [reflexivity|].
  assert (KU : kernel_usable ex104_K (feature_count ex80_train) ex104_cur).
  { split; [reflexivity|]. split; [apply Nat.lt_0_1|]. split; [intros f _; cbn; lra|]. cbn. split; [reflexivity|]. split; [reflexivity|lra]. }
  split; [exact KU|]. intros hnsw.
  destruct (nn_init false (rows_of ex80_train) 2 "exact" []) as [w|e] eqn:Ew; [|discriminate].
  assert (EU : euclidean_kw []) by (unfold euclidean_kw; cbn; auto).
  destruct (regress_ns ex104_gamma ex104_kv gauss gauss_exact ref_knn hnsw (fun _ => ref_dist) ref_ok false "exact" [] w ex80_gp ex104_K ex104_cur
    ex80_test ex80_train ex80_targets 3 2 2 [] eq_refl EU Ew ltac:(lia) (or_introl eq_refl) (or_introl eq_refl) eq_refl eq_refl KU eq_refl (no_coincidence_nil _)
    eq_refl eq_refl Logic.I) as (NR & OKR & _).
  assert (KV : forall v, lk_cov ex104_gamma ex104_kv ex104_K (feature_count ex80_train) ex104_cur [] v = exp (- (if Req_EM_T (v O) 0 then / 2 ^ 52 else Rabs (v O)))).
  { intros v. unfold lk_cov, ex104_K, matern_cov, kw_or. cbn [dget nm_loc ex104_cur formula_for p_fixed matern_value].
    assert (SD : sqrt (scaled_sqdist (feature_count ex80_train) (scale_of (Iso L2 (mkNamed "length_scale" 0)) ex104_cur []) v (fun _ => 0)) = Rabs (v O)).
    { unfold scaled_sqdist, feature_count, ex80_train, scale_of, kw_or. cbn [shape rsum dget nm_loc ex104_cur].
      rewrite <- sqrt_Rsqr_abs. f_equal. unfold Rsqr. field. }
    rewrite SD. destruct (Req_EM_T (Rabs (v O)) 0) as [Z|NZ]; destruct (Req_EM_T (v O) 0) as [Z'|NZ'].
    - apply (bessel_half _ _ (/ 2 ^ 52) ex104_half). apply Rinv_0_lt_compat, pow_lt. lra.
    - exfalso. apply Rabs_no_R0 in NZ'. contradiction.
    - exfalso. apply NZ. rewrite Z'. apply Rabs_R0.
    - apply (bessel_half _ _ (Rabs (v O)) ex104_half). pose proof (Rabs_pos (v O)). lra. }
  destruct OKR as (mean & var & E).
  { intros x Hx. destruct (NR x Hx) as (B & INJ & _). set (q := nbr ref_knn hnsw w ex80_test) in *.
    set (a := exp (- / 2 ^ 52)). pose proof (INJ 0%nat 1%nat ltac:(lia) ltac:(lia)) as IJ.
    assert (D1 : forall i, kcov (lk_cov ex104_gamma ex104_kv ex104_K (feature_count ex80_train) ex104_cur []) ex80_train ex80_train i i = a).
    { intros i. unfold kcov. rewrite KV. destruct (Req_EM_T _ 0) as [|C]; [reflexivity|]. exfalso. apply C. ring. }
    assert (LT : / 2 ^ 52 < 1) by (rewrite <- Rinv_1; apply Rinv_lt_contravar; [|apply Rlt_pow_R1; [lra|lia]]; rewrite Rmult_1_l; apply pow_lt; lra).
    assert (D2 : forall i j, (i < 3)%nat -> (j < 3)%nat -> i <> j ->
      kcov (lk_cov ex104_gamma ex104_kv ex104_K (feature_count ex80_train) ex104_cur []) ex80_train ex80_train i j < a /\
      0 < kcov (lk_cov ex104_gamma ex104_kv ex104_K (feature_count ex80_train) ex104_cur []) ex80_train ex80_train i j).
    { intros i j Hi Hj NE. unfold kcov. rewrite KV.
      assert (G : 1 <= Rabs (feature ex80_train i O - feature ex80_train j O)).
      { unfold feature, ex80_train. cbn [shape at_ List.length Nat.eqb]. destruct i as [|[|[|i]]]; [| | |lia]; (destruct j as [|[|[|j]]]; [| | |lia]); try (exfalso; apply NE; reflexivity);
        match goal with |- _ <= Rabs ?z => destruct (Rle_dec 0 z) as [P|P]; [rewrite Rabs_pos_eq by exact P|rewrite Rabs_left by lra]; lra end. }
      destruct (Req_EM_T _ 0) as [Z|_]; [rewrite Z, Rabs_R0 in G; lra|]. split; [|apply exp_pos]. apply exp_increasing. lra. }
    assert (A00 : forall i, nbr_matrix (lk_cov ex104_gamma ex104_kv ex104_K (feature_count ex80_train) ex104_cur []) (gp_noise ex80_gp) ex80_train q x i i = a).
    { intros i. unfold nbr_matrix, plus_diag. rewrite D1, Nat.eqb_refl. cbn. ring. }
    assert (QN : q x 0%nat <> q x 1%nat) by (intros C; specialize (IJ C); discriminate).
    destruct (D2 _ _ (B 0%nat ltac:(lia)) (B 1%nat ltac:(lia)) QN) as [L1' G1].
    destruct (D2 _ _ (B 1%nat ltac:(lia)) (B 0%nat ltac:(lia)) (fun C => QN (eq_sym C))) as [L2' G2].
    intros v S. pose proof (S 0%nat ltac:(lia)) as S0. pose proof (S 1%nat ltac:(lia)) as S1. cbn [rsum] in S0, S1.
    rewrite A00 in S0, S1. unfold nbr_matrix, plus_diag in S0, S1. cbn [Nat.eqb] in S0, S1.
    set (b := kcov _ _ _ (q x 0%nat) (q x 1%nat)) in *. set (c := kcov _ _ _ (q x 1%nat) (q x 0%nat)) in *.
    assert (DET : 0 < a * a - b * c) by nra.
    assert (V0 : (a * a - b * c) * v 0%nat = 0) by nra.
    assert (V1 : (a * a - b * c) * v 1%nat = 0) by nra.
    intros j Hj. destruct j as [|[|j]]; [| |lia]; [apply Rmult_integral in V0|apply Rmult_integral in V1]; lra. }
  exists w, mean, var. split; [reflexivity|]. split; [exact E|]. intros d D DD. cbn.
  split; [intros l; apply Rabs_def1; lra|]. split; [intros x i _ _; cbn; apply Rabs_def1; lra|]. split; [apply Rabs_def1; lra|exact Logic.I].
Qed.
