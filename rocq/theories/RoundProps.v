(** Property theorems C106: predictions computed with rounded arithmetic. *)
From Coq Require Import Lia Lra.
From Verif Require Import Base BaseFacts NdModel NdFacts RSum HyperModel NamedModel NamedSpec LinAlgModel LinAlgSpec LinAlgFacts Gauss
  GPModel NoiseModel MuyGPSModel GPSpec MuyGPSProofs GPTheorems WellPosedProofs TensorModel TensorSpec TensorProofs KernelModel KernelSpec KernelProofs
  NeighborsModel NeighborsSpec NeighborsProofs FlowModel FlowSpec FlowProofs PointwiseSpec LibSpec LibProofs
  MultiModel DriverModel WorkModel WorkSpec WorkProofs WorkLemmas WorkProps BestSpec LocalSpec LocalProps FarSpec FarProofs SmoothProofs ContProofs RoundSpec RoundProofs.
Local Open Scope R_scope.
Local Open Scope string_scope.

(** * C106 *)
(** Let [kern'] be a kernel whose values are off by at most [eta] and [ls'] a solver that leaves residuals of at most [delta].  With noise at
    least [nu] (and [n eta < nu]) the prediction made with both succeeds and differs from the exact one by at most the stated amounts. *)
Theorem C106_bound : forall gamma kv ls, exact_solver ls -> forall knn hnsw dist, sklearn_ok knn dist ->
  forall ls' kern' eta delta nu numax en method kw w g K cur test train targets N M n ex Y,
  0 < nu -> 0 <= eta <= 1 -> 0 <= delta -> INR n * eta < nu ->
  lower method = "exact" -> euclidean_kw kw -> nn_init en (rows_of train) n method kw = Ok w -> (0 < n <= N /\ 0 < M)%nat ->
  dataset test M -> dataset train N -> ndim test = ndim train -> feature_count test = feature_count train ->
  lk_ok K (feature_count train) cur [] -> shape targets = N :: ex -> no_coincidence ex [n] ->
  0 <= Y -> (forall a e, (a < N)%nat -> inb ex e -> Rabs (at_ targets (a :: e)) <= Y) ->
  shape (gp_Kout g) = [] -> at_ (gp_Kout g) [] = 1 -> 0 <= gp_var_scale g -> noise_fits (gp_noise g) M n ->
  noise_at_least (gp_noise g) nu M n -> (forall x i, (x < M)%nat -> (i < n)%nat -> noise_at (gp_noise g) None x i <= numax) ->
  rounded_solver ls' n (nu - INR n * eta) (2 + numax) delta ->
  rounded_kernel (feature_count train) kern' (lk_call gamma kv K cur []) eta ->
  let E := INR n * (eta + delta + eta * (INR n / nu)) / (nu - INR n * eta) in
  exists mean var mean' var',
    regress_any ls knn hnsw (Univariate (lib_model gamma kv g K cur)) test train w targets = Ok (mean, var) /\
    regress_any ls' knn hnsw (Univariate (mkMm g kern')) test train w targets = Ok (mean', var') /\
    shape mean' = shape mean /\ shape var' = shape var /\
    forall x, (x < M)%nat ->
      Rabs (at_ var' [x] - at_ var [x]) <= gp_var_scale g * (E * (1 + eta) + INR n / nu * eta) /\
      forall e, inb ex e -> Rabs (at_ mean' (x :: e) - at_ mean (x :: e)) <= E * Y.
Proof.
  intros gamma kv ls EX knn hnsw dist Hsk ls' kern' eta delta nu numax en method kw w g K cur test train targets N M n ex Y
    NU ET DE NE Hm He Hi Hn D1 D2 ND FC OK HT NC Y0 YB SK K1 SC NF NL NM RS RK E.
  apply (rounded_any gamma kv ls EX knn hnsw dist Hsk ls' kern' nu eta delta numax en method kw w g K cur test train targets N M n ex Y); auto.
  - left. intros x i Hx Hi'. specialize (NL x i Hx Hi'). lra.
  - intros q x Hx _ _. apply (noise_coercive gamma kv K cur _ nu train M); auto.
Qed.
Print Assumptions C106_bound.

(** Without a noise floor it is enough that the training rows are distinct: for given data there are a conditioning constant [c], an accuracy
    [eta0] from which on everything works, and a factor [C] such that the errors of the predictions are at most [C] times those of the
    kernel and the solver, for all test sets and all responses. *)
Theorem C106_stable : forall gamma kv ls, exact_solver ls -> forall knn hnsw dist, sklearn_ok knn dist ->
  forall K cur train N n nu, dataset train N -> lk_ok K (feature_count train) cur [] -> (0 < n <= N)%nat -> 0 < nu ->
  exists c eta0 C, 0 < c /\ 0 < eta0 /\ 0 < C /\
  forall ls' kern' eta delta numax en method kw w g test targets M ex Y,
  0 <= eta <= eta0 -> 0 <= delta ->
  lower method = "exact" -> euclidean_kw kw -> nn_init en (rows_of train) n method kw = Ok w -> (0 < M)%nat ->
  dataset test M -> ndim test = ndim train -> feature_count test = feature_count train -> shape targets = N :: ex -> no_coincidence ex [n] ->
  0 <= Y -> (forall a e, (a < N)%nat -> inb ex e -> Rabs (at_ targets (a :: e)) <= Y) ->
  shape (gp_Kout g) = [] -> at_ (gp_Kout g) [] = 1 -> 0 <= gp_var_scale g -> noise_fits (gp_noise g) M n ->
  robust (gp_noise g) nu train N M n -> (forall x i, (x < M)%nat -> (i < n)%nat -> noise_at (gp_noise g) None x i <= numax) ->
  rounded_solver ls' n c (2 + numax) delta ->
  rounded_kernel (feature_count train) kern' (lk_call gamma kv K cur []) eta ->
  exists mean var mean' var',
    regress_any ls knn hnsw (Univariate (lib_model gamma kv g K cur)) test train w targets = Ok (mean, var) /\
    regress_any ls' knn hnsw (Univariate (mkMm g kern')) test train w targets = Ok (mean', var') /\
    shape mean' = shape mean /\ shape var' = shape var /\
    forall x, (x < M)%nat ->
      Rabs (at_ var' [x] - at_ var [x]) <= C * gp_var_scale g * (eta + delta) /\
      forall e, inb ex e -> Rabs (at_ mean' (x :: e) - at_ mean (x :: e)) <= C * Y * (eta + delta).
Proof.
  intros gamma kv ls EX knn hnsw dist Hsk K cur train N n nu D2 OK Hn NU.
  destruct (robust_coercive gamma kv K cur train N nu OK NU) as (c & C0 & CO).
  pose proof (pos_INR n) as N0. set (m := INR n) in *.
  assert (I0 : 0 <= m / c) by (apply Rmult_le_pos; [exact N0|left; apply Rinv_0_lt_compat; exact C0]).
  set (W := 2 * m / c * (1 + m / c)).
  assert (W0 : 0 <= W) by (unfold W; replace (2 * m / c) with (2 * (m / c)) by (field; lra); apply Rmult_le_pos; lra).
  exists (c / 2), (Rmin 1 (c / (2 * (m + 1)))), (1 + 2 * W + m / c).
  assert (Q0 : 0 < c / (2 * (m + 1))) by (apply Rdiv_lt_0_compat; lra).
  split; [lra|]. split; [apply Rmin_glb_lt; lra|]. split; [lra|].
  intros ls' kern' eta delta numax en method kw w g test targets M ex Y [E0 EB] DE Hm He Hi MP D1 ND FC HT NC Y0 YB SK K1 SC NF RB NM RS RK.
  assert (E1 : eta <= 1) by (eapply Rle_trans; [exact EB|apply Rmin_l]).
  assert (E2 : m * eta <= c / 2).
  { assert (eta <= c / (2 * (m + 1))) as L by (eapply Rle_trans; [exact EB|apply Rmin_r]).
    apply Rle_trans with ((m + 1) * (c / (2 * (m + 1)))); [apply Rmult_le_compat; lra|right; field; lra]. }
  destruct (rounded_any gamma kv ls EX knn hnsw dist Hsk ls' kern' c eta delta numax en method kw w g K cur test train targets N M n ex Y)
    as (mean & var & mean' & var' & R1 & R2 & S1 & S2 & V); auto.
  { fold m. lra. }
  { apply (robust_sound _ nu); auto. }
  { intros q x Hx IQ JQ. apply (CO (gp_noise g) M n q x RB Hx); auto. }
  { intros k A B BB AB BD. apply RS; auto. intros v. pose proof (BB v) as X. fold m in X.
    assert (0 <= rsum n (fun i => v i ^ 2)) by (apply rsum_nonneg; intros; apply pow2_ge_0).
    eapply Rle_trans; [|exact X]. apply Rmult_le_compat_r; lra. }
  assert (WE : weight_err n c eta delta <= W * (eta + delta)).
  { unfold weight_err, resid_err. fold m.
    assert (P : 0 <= m * (eta + delta + eta * (m / c))) by (apply Rmult_le_pos; [auto|]; pose proof (Rmult_le_pos _ _ E0 I0); lra).
    apply Rle_trans with (m * (eta + delta + eta * (m / c)) / (c / 2)).
    - unfold Rdiv at 1 3. apply Rmult_le_compat_l; [exact P|]. apply Rinv_le_contravar; lra.
    - replace (W * (eta + delta)) with (m * ((1 + m / c) * (eta + delta)) / (c / 2)) by (unfold W; field; lra).
      unfold Rdiv at 1 3. apply Rmult_le_compat_r; [left; apply Rinv_0_lt_compat; lra|]. apply Rmult_le_compat_l; [exact N0|].
      pose proof (Rmult_le_pos _ _ DE I0). lra. }
  assert (SU : 0 <= eta + delta) by lra. pose proof (Rmult_le_pos _ _ W0 SU) as WS. pose proof (Rmult_le_pos _ _ I0 SU) as IS.
  pose proof (Rmult_le_pos _ _ I0 DE) as ID.
  exists mean, var, mean', var'. split; [exact R1|]. split; [exact R2|]. split; [exact S1|]. split; [exact S2|]. intros x Hx.
  destruct (V x Hx) as [V1 V2]. split.
  - eapply Rle_trans; [exact V1|]. fold m. replace ((1 + 2 * W + m / c) * gp_var_scale g * (eta + delta)) with (gp_var_scale g * ((1 + 2 * W + m / c) * (eta + delta))) by ring.
    apply Rmult_le_compat_l; [exact SC|].
    apply Rle_trans with (W * (eta + delta) * (1 + eta) + m / c * eta); [apply Rplus_le_compat_r, Rmult_le_compat_r; lra|].
    assert (W * (eta + delta) * (1 + eta) <= W * (eta + delta) * 2) by (apply Rmult_le_compat_l; lra). lra.
  - intros e Hie. eapply Rle_trans; [apply V2; exact Hie|]. replace ((1 + 2 * W + m / c) * Y * (eta + delta)) with ((1 + 2 * W + m / c) * (eta + delta) * Y) by ring.
    apply Rmult_le_compat_r; [exact Y0|]. lra.
Qed.
Print Assumptions C106_stable.

(** A solver and a kernel that are off: the exact solution with a constant added, the exact kernel with a constant added. *)
Definition ex106_solver (n : nat) (a d : R) : lsolver := fun n' k A B =>
  match gauss n' k A B with Some X => Some (fun i j => X i j + d / (INR n * a + 1)) | None => None end.
Definition ex106_kernel (kern : nd R -> result (nd R)) (e : R) : nd R -> result (nd R) := fun d =>
  match kern d with Ok K => Ok (ndmap (fun v => v + e) K) | Err x => Err x end.

Lemma ex106_solver_rounded n c a d : 0 < c -> 0 <= a -> 0 <= d -> rounded_solver (ex106_solver n a d) n c a d.
Proof.
  intros C0 A0 D0 k A B BB AB _. pose proof (pos_INR n) as N0. pose proof (Rmult_le_pos _ _ N0 A0) as NA.
  destruct (gauss_exact) as [G1 G2].
  destruct (proj1 (G2 n k A B)) as [X EX].
  { intros v Hv j Hj. pose proof (BB v) as Q. rewrite (quad_solves n A v (fun _ => 0) Hv) in Q.
    assert (Z : dot n v (fun _ => 0) = 0) by (unfold dot; transitivity (rsum n (fun _ => 0)); [apply rsum_ext; intros; ring|apply rsum_0]). rewrite Z in Q.
    assert (P : 0 <= rsum n (fun i => v i ^ 2)) by (apply rsum_nonneg; intros; apply pow2_ge_0).
    assert (Z2 : rsum n (fun i => v i ^ 2) = 0) by nra.
    assert (v j ^ 2 = 0) by (apply (rsum_zero_inv n (fun i => v i ^ 2)); auto; intros; apply pow2_ge_0). nra. }
  unfold ex106_solver. rewrite EX. eexists. split; [reflexivity|]. intros j Hj i Hi. cbn beta.
  pose proof (G1 _ _ _ _ _ EX j Hj i Hi) as S. cbn beta in S. rewrite <- S, <- rsum_minus.
  rewrite (rsum_ext n (fun l => A i l * (X l j + d / (INR n * a + 1)) - A i l * X l j) (fun l => A i l * (d / (INR n * a + 1)))) by (intros; unfold Rdiv; ring). rewrite rsum_scal_r, Rabs_mult.
  assert (D1 : 0 <= d / (INR n * a + 1)) by (apply Rmult_le_pos; [auto|left; apply Rinv_0_lt_compat; lra]).
  rewrite (Rabs_pos_eq (d / _)) by exact D1.
  assert (SB : Rabs (rsum n (fun l => A i l)) <= INR n * a).
  { eapply Rle_trans; [apply rsum_abs|]. rewrite <- rsum_const. apply rsum_le. intros l Hl. apply AB; auto. }
  apply Rle_trans with (INR n * a * (d / (INR n * a + 1))); [apply Rmult_le_compat_r; auto|].
  apply Rle_trans with ((INR n * a + 1) * (d / (INR n * a + 1))); [apply Rmult_le_compat_r; lra|right; field; lra].
Qed.
Lemma ex106_kernel_rounded F kern k e : 0 <= e -> pointwise_kernel F kern k -> rounded_kernel F (ex106_kernel kern e) kern e.
Proof.
  intros E0 [_ P] d sh Hd. destruct (P d sh Hd) as (K & EK & SK & _). exists (ndmap (fun v => v + e) K), K.
  unfold ex106_kernel. rewrite EK. repeat (split; [auto; fail|]). intros idx _. cbn [ndmap at_].
  replace (at_ K idx + e - at_ K idx) with e by ring. rewrite Rabs_pos_eq; lra.
Qed.

(** The data of C80_sat with noise 1/10, kernel and solver off by 1/1000. *)
Example C106_sat : forall gamma kv, exists ls' kern', ls' <> gauss /\
  rounded_solver ls' 2 (1/10 - INR 2 * (1/1000)) (2 + 1/10) (1/1000) /\
  rounded_kernel (feature_count ex80_train) kern' (lk_call gamma kv ex80_K (fun _ => 1) []) (1/1000) /\
  INR 2 * (1/1000) < 1/10 /\ noise_at_least (gp_noise ex95_gp) (1/10) 2 2 /\
  (forall x i, (x < 2)%nat -> (i < 2)%nat -> noise_at (gp_noise ex95_gp) None x i <= 1/10) /\
  (forall a e, (a < 3)%nat -> inb [] e -> Rabs (at_ ex80_targets (a :: e)) <= 2).
Proof.
  intros gamma kv. destruct C80_sat as (knn & dist & w & w' & H). decompose [and] H.
  exists (ex106_solver 2 (2 + 1/10) (1/1000)), (ex106_kernel (lk_call gamma kv ex80_K (fun _ => 1) []) (1/1000)).
  split.
  { intros E. assert (E1 : ex106_solver 2 (2 + 1/10) (1/1000) 1%nat 1%nat (fun _ _ => 1) (fun _ _ => 1) = gauss 1%nat 1%nat (fun _ _ => 1) (fun _ _ => 1)) by (rewrite E; reflexivity).
    destruct gauss_exact as [G1 G2]. destruct (proj1 (G2 1%nat 1%nat (fun _ _ => 1) (fun _ _ => 1))) as [X EX].
    { intros v Hv j Hj. pose proof (Hv O Nat.lt_0_1) as Z. cbn in Z. assert (j = O) by lia. subst j. lra. }
    unfold ex106_solver in E1. rewrite EX in E1. assert (E2 : forall Z, Some (fun i j : nat => X i j + 1/1000 / (INR 2 * (2 + 1/10) + 1)) = Some Z -> Z O O = X O O + 1/1000 / (INR 2 * (2 + 1/10) + 1)) by (intros Z EZ; injection EZ as <-; reflexivity).
    specialize (E2 _ E1). cbn [INR] in E2. assert (0 < 1/1000 / ((1 + 1) * (2 + 1/10) + 1)) by (apply Rdiv_lt_0_compat; lra). lra. }
  split; [apply ex106_solver_rounded; cbn [INR]; lra|].
  split; [apply (ex106_kernel_rounded _ _ (lk_cov gamma kv ex80_K (feature_count ex80_train) (fun _ => 1) [])); [lra|apply lk_pointwise; assumption]|].
  split; [cbn [INR]; lra|]. split; [intros x i _ _; cbn; lra|]. split; [intros x i _ _; cbn; lra|].
  intros a e Ha _. cbn [ex80_targets at_ hd]. rewrite Rabs_pos_eq by apply pos_INR. apply (le_INR a 2). lia.
Qed.

(** The constants of C106_stable depend on the training rows.  Without noise there is no bound that serves all training sets: a solver with
    residuals of [delta], however small, can move a prediction by any amount when two training rows are close together (0 and [h], with
    responses 1 and -1; the test row is 0). *)
Definition ex106_skew (d : R) : lsolver := fun n k A B =>
  match gauss n k A B with
  | Some X => Some (fun i j => X i j + (match i with O => 1 | _ => -1 end) * (d / (Rabs (A O O - A O 1%nat) + Rabs (A 1%nat O - A 1%nat 1%nat))))
  | None => None end.
Definition ex106_train (h : R) : nd R := mkNd [2%nat] (fun idx => match idx with [O] => 0 | _ => h end).
Definition ex106_test : nd R := mkNd [1%nat] (fun _ => 0).
Definition ex106_targets : nd R := mkNd [2%nat] (fun idx => match idx with [O] => 1 | _ => -1 end).

Lemma bounded_below_ns n c A : 0 < c -> bounded_below n A c -> nonsingular n A.
Proof.
  intros C0 BB v Hv j Hj. pose proof (BB v) as Q. rewrite (quad_solves n A v (fun _ => 0) Hv) in Q.
  assert (Z : dot n v (fun _ => 0) = 0) by (unfold dot; transitivity (rsum n (fun _ => 0)); [apply rsum_ext; intros; ring|apply rsum_0]). rewrite Z in Q.
  assert (P : 0 <= rsum n (fun i => v i ^ 2)) by (apply rsum_nonneg; intros; apply pow2_ge_0).
  assert (Z2 : rsum n (fun i => v i ^ 2) = 0) by nra.
  assert (v j ^ 2 = 0) by (apply (rsum_zero_inv n (fun i => v i ^ 2)); auto; intros; apply pow2_ge_0). nra.
Qed.

Lemma ex106_skew_rounded c a d : 0 < c -> 0 <= d -> rounded_solver (ex106_skew d) 2 c a d.
Proof.
  intros C0 D0 k A B BB _ _. destruct gauss_exact as [G1 G2].
  destruct (proj1 (G2 2%nat k A B)) as [X EX]; [apply (bounded_below_ns 2 c); auto|].
  unfold ex106_skew. rewrite EX. eexists. split; [reflexivity|]. intros j Hj i Hi. cbn beta.
  pose proof (G1 _ _ _ _ _ EX j Hj i Hi) as S. cbn beta in S. rewrite <- S.
  set (s := Rabs (A O O - A O 1%nat) + Rabs (A 1%nat O - A 1%nat 1%nat)).
  assert (S0 : 0 < s).
  { pose proof (BB (fun i => match i with O => 1 | _ => -1 end)) as Q. unfold quad in Q. cbn [rsum] in Q.
    pose proof (Rle_abs (A O O - A O 1%nat)). pose proof (Rle_abs (- (A 1%nat O - A 1%nat 1%nat))) as Z. rewrite Rabs_Ropp in Z. unfold s. lra. }
  cbn [rsum].
  replace (0 + A i O * (X O j + 1 * (d / s)) + A i 1%nat * (X 1%nat j + -1 * (d / s)) - (0 + A i O * X O j + A i 1%nat * X 1%nat j))
    with ((A i O - A i 1%nat) * (d / s)) by ring.
  assert (T0 : 0 <= d / s) by (apply Rmult_le_pos; [auto|left; apply Rinv_0_lt_compat; auto]).
  rewrite Rabs_mult, (Rabs_pos_eq (d / s)) by exact T0.
  apply Rle_trans with (s * (d / s)); [|right; field; lra]. apply Rmult_le_compat_r; [exact T0|]. unfold s.
  pose proof (Rabs_pos (A O O - A O 1%nat)). pose proof (Rabs_pos (A 1%nat O - A 1%nat 1%nat)).
  destruct i as [|[|i]]; [lra|lra|lia].
Qed.

Theorem C106_ill_conditioned_refuted : forall gamma kv ls, exact_solver ls -> forall knn hnsw dist, sklearn_ok knn dist ->
  forall delta, 0 < delta -> exists ls', (forall c a, 0 < c -> rounded_solver ls' 2 c a delta) /\
  forall B, exists h, 0 < h /\ forall w, nn_init false (rows_of (ex106_train h)) 2 "exact" [] = Ok w ->
  exists mean var mean' var',
    regress_any ls knn hnsw (Univariate (lib_model gamma kv ex80_gp ex80_K (fun _ => 1))) ex106_test (ex106_train h) w ex106_targets = Ok (mean, var) /\
    regress_any ls' knn hnsw (Univariate (lib_model gamma kv ex80_gp ex80_K (fun _ => 1))) ex106_test (ex106_train h) w ex106_targets = Ok (mean', var') /\
    B < Rabs (at_ mean' [0%nat] - at_ mean [0%nat]).
Proof.
  intros gamma kv ls EX knn hnsw dist Hsk delta D0. exists (ex106_skew delta).
  split; [intros c a C0; apply ex106_skew_rounded; lra|]. intros B.
  set (u := delta / (2 * (Rabs B + 1))). pose proof (Rabs_pos B) as B0. pose proof (Rle_abs B) as B1.
  assert (U0 : 0 < u) by (apply Rdiv_lt_0_compat; lra).
  set (h := sqrt (2 * u)). assert (H0 : 0 < h) by (apply sqrt_lt_R0; lra).
  assert (H2 : h ^ 2 = 2 * u) by (unfold h; rewrite <- Rsqr_pow2, Rsqr_sqrt; lra).
  exists h. split; [exact H0|]. intros w Hi.
  set (K := ex80_K). set (cur := fun _ : nat => 1).
  assert (OK : lk_ok K (feature_count (ex106_train h)) cur []).
  { split; [reflexivity|]. split; [apply Nat.lt_0_1|]. split; [intros f _; cbn; unfold cur; lra|reflexivity]. }
  assert (DR : distinct_rows (ex106_train h) 2 (fun i => i)).
  { intros i j Hi0 Hj0 Hij. exists O. split; [apply Nat.lt_0_1|]. unfold feature, ex106_train. cbn [shape at_].
    destruct i as [|[|i]]; [| |lia]; (destruct j as [|[|j]]; [| |lia]); try lia; lra. }
  assert (SN : sound_noise (gp_noise ex80_gp) (ex106_train h) 2 1 2) by (right; split; [intros; cbn; lra|exact DR]).
  assert (E0 : euclidean_kw []) by (unfold euclidean_kw; cbn; auto).
  destruct (regress_any_nbr gamma kv ls EX knn hnsw dist Hsk false "exact" [] w ex80_gp K cur [] ex106_test (ex106_train h) ex106_targets 2 1 2 [])
    as (mean & var & E & _ & _ & NS & V); auto; [left; reflexivity|left; reflexivity|apply no_coincidence_nil|cbn; lra|exact Logic.I|].
  fold (lib_model gamma kv ex80_gp K cur) in E.
  set (q := nbr knn hnsw w ex106_test) in *. set (k := lk_cov gamma kv K (feature_count (ex106_train h)) cur []) in *.
  set (A := nbr_matrix k (gp_noise ex80_gp) (ex106_train h) q 0) in *. set (kx := fun i => kcov k ex106_test (ex106_train h) 0 (q O i)).
  set (s := Rabs (A O O - A O 1%nat) + Rabs (A 1%nat O - A 1%nat 1%nat)).
  destruct (solver_any gamma kv knn hnsw dist Hsk (ex106_skew delta)
    (fun _ X => exists X0 : nat -> R, solves 2 A X0 kx /\ X O O = X0 O + delta / s /\ X 1%nat O = X0 1%nat - delta / s)
    false "exact" [] w ex80_gp K cur ex106_test (ex106_train h) ex106_targets 2 1 2 [])
    as (mean' & var' & E' & V'); auto; [left; reflexivity|left; reflexivity|apply no_coincidence_nil|exact Logic.I| |].
  { intros x U Bx Hx NR HU HB. assert (x = O) by lia. subst x. destruct gauss_exact as [G1 G2].
    fold q k A in HU, HB.
    destruct (proj1 (G2 2%nat 1%nat U Bx)) as [X EXX].
    { apply (nonsingular_ext 2 A); [intros; symmetry; apply HU; auto|]. apply NS. lia. }
    unfold ex106_skew. rewrite EXX. eexists. split; [reflexivity|]. exists (fun i => X i O). split.
    - pose proof (G1 _ _ _ _ _ EXX O Nat.lt_0_1) as S. intros i Hi'. pose proof (S i Hi') as Si. cbn beta in Si.
      rewrite HB in Si by (auto; lia). unfold kx. rewrite <- Si. apply rsum_ext. intros j Hj. rewrite HU by auto. reflexivity.
    - rewrite !HU by lia. fold s. split; ring. }
  exists mean, var, mean', var'. split; [exact E|]. split; [exact E'|].
  destruct (V O Nat.lt_0_1) as (NR & Mx & _). destruct (Mx [] inb_nil) as (wv & SO & ->).
  destruct (V' O Nat.lt_0_1) as (_ & X & (X0 & SX & XA & XB) & V1). rewrite (V1 [] inb_nil). fold q k A in SO. fold q.
  pose proof (solves_unique 2 A X0 wv kx (NS O Nat.lt_0_1) SX SO) as UQ.
  unfold dot. cbn [rsum]. rewrite XA, XB, !UQ by lia.
  assert (Q0 : q O O = O /\ q O 1%nat = 1%nat).
  { destruct NR as (Bq & Iq & Sq & _). pose proof (Bq O ltac:(lia)). pose proof (Bq 1%nat ltac:(lia)).
    assert (NEQ : q O O <> q O 1%nat) by (intros Z; apply Iq in Z; lia).
    destruct (Nat.eq_dec (q O O) 0) as [Z|Z]; [split; [exact Z|lia]|]. exfalso.
    assert (Z1 : q O O = 1%nat) by lia. assert (Z2 : q O 1%nat = O) by lia.
    pose proof (Sq O 1%nat ltac:(lia) ltac:(lia)) as L. fold q in L. rewrite Z1, Z2 in L.
    unfold row_dist, sqdist, feature, feature_count, ex106_train, ex106_test in L. cbn [shape at_ rsum] in L. nra. }
  destruct Q0 as [QA QB]. rewrite QA, QB. cbn [ex106_targets at_].
  replace (0 + (wv O + delta / s) * 1 + (wv 1%nat - delta / s) * -1 - (0 + wv O * 1 + wv 1%nat * -1)) with (2 * (delta / s)) by ring.
  assert (EU : exp (- u) < 1) by (apply Rlt_le_trans with (exp 0); [apply exp_increasing; lra|rewrite exp_0; lra]).
  assert (SV : s = 2 * (1 - exp (- u))).
  { assert (KV : forall i j, kcov k (ex106_train h) (ex106_train h) i j = exp (- (feature (ex106_train h) i O - feature (ex106_train h) j O) ^ 2 / 2)).
    { intros i j. unfold kcov, k, K, ex80_K. cbn [lk_cov]. unfold rbf_cov, scaled_sqdist, feature_count. cbn [ex106_train shape rsum].
      f_equal. cbn. unfold cur. field. }
    unfold s, A, nbr_matrix, plus_diag. cbn [Nat.eqb]. rewrite !QA, !QB, !KV. cbn [gp_noise ex80_gp noise_at].
    unfold feature. cbn [ex106_train shape at_].
    replace (- (0 - 0) ^ 2 / 2) with 0 by field. replace (- (h - h) ^ 2 / 2) with 0 by field.
    replace (- (0 - h) ^ 2 / 2) with (- u) by (replace ((0 - h) ^ 2) with (h ^ 2) by ring; rewrite H2; field).
    replace (- (h - 0) ^ 2 / 2) with (- u) by (replace ((h - 0) ^ 2) with (h ^ 2) by ring; rewrite H2; field).
    rewrite exp_0.
    rewrite (Rabs_pos_eq (1 + 0 - (exp (- u) + 0))) by lra. rewrite (Rabs_left1 (exp (- u) + 0 - (1 + 0))) by lra. ring. }
  pose proof (exp_ineq1_le (- u)) as EI.
  assert (G : 2 * (delta / s) = delta / (1 - exp (- u))) by (rewrite SV; field; lra).
  assert (L : delta / u <= delta / (1 - exp (- u))).
  { unfold Rdiv. apply Rmult_le_compat_l; [lra|]. apply Rinv_le_contravar; lra. }
  assert (DU : delta / u = 2 * (Rabs B + 1)) by (unfold u; field; lra).
  rewrite G, Rabs_pos_eq by lra. lra.
Qed.
Print Assumptions C106_ill_conditioned_refuted.
Example C106_refuted_sat : forall h, exists w, nn_init false (rows_of (ex106_train h)) 2 "exact" [] = Ok w.
Proof. intros h. eexists. reflexivity. Qed.
