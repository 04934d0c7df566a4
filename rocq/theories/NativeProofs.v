(** Lemmas for C116. *)
From Coq Require Import Lia Lra.
From Verif Require Import Base BaseFacts NdModel NdFacts RSum HyperModel NamedModel NamedSpec LinAlgModel LinAlgSpec LinAlgFacts Gauss
  GPModel NoiseModel MuyGPSModel GPSpec GPTheorems WellPosedProofs TensorModel TensorSpec TensorProofs KernelModel KernelSpec
  NeighborsModel NeighborsSpec NeighborsProofs FlowModel FlowSpec FlowProofs PointwiseSpec LibSpec LibProofs
  MultiModel DriverModel WorkModel WorkSpec WorkProofs WorkLemmas BestSpec BestGram BestProofs FarSpec FarProofs DupProofs SimplerSpec ExpoProofs NativeSpec.
Local Open Scope R_scope.

Lemma gram_inner T (L : nat -> nat -> R) p (a : nat -> R) m (b : nat -> R) (ia ib : nat -> nat) :
  rsum T (fun s => rsum p (fun j => a j * L (ia j) s) * rsum m (fun i => b i * L (ib i) s)) =
  rsum p (fun j => rsum m (fun i => a j * b i * rsum T (fun s => L (ia j) s * L (ib i) s))).
Proof.
  rewrite (rsum_ext T _ (fun s => rsum p (fun j => rsum m (fun i => a j * b i * (L (ia j) s * L (ib i) s))))).
  2:{ intros s _. rewrite <- rsum_scal_r. apply rsum_ext. intros j _. rewrite <- rsum_scal. apply rsum_ext. intros i _. ring. }
  rewrite rsum_swap. apply rsum_ext. intros j _. rewrite rsum_swap. apply rsum_ext. intros i _. apply rsum_scal.
Qed.

(** Cauchy-Schwarz for the kernel: the error of a linear predictor with weights [u] on a function of the span, with deviations [r]. *)
Section CS.
Variable k : (nat -> R) -> R.
Variable pt : nat -> nat -> R.
Variables (p n : nat).
Let G := fun i j => k (fun f => pt i f - pt j f).
Hypothesis PSD : psd (p + S n) G.
Hypothesis SYM : symmetric (p + S n) G.

Lemma kernel_cs (a u r nu : nat -> R) : (forall i, (i < n)%nat -> 0 <= nu i) -> (forall i, (i < n)%nat -> 0 < nu i \/ nu i = 0 /\ r i = 0) ->
  (rsum p (fun j => a j * G j p) - rsum n (fun i => u i * (rsum p (fun j => a j * G j (p + S i)%nat) + r i))) ^ 2 <=
  (rsum p (fun i => rsum p (fun j => a i * a j * G i j)) + rsum n (fun i => r i ^ 2 / nu i)) *
  (G p p - 2 * rsum n (fun i => u i * G p (p + S i)%nat) + rsum n (fun i => rsum n (fun j => u i * u j * (G (p + S i)%nat (p + S j)%nat + if (i =? j)%nat then nu i else 0)))).
Proof.
  intros N0 NR. destruct (gram_of_psd _ _ SYM PSD) as [L HL].
  set (b := fun i => match i with O => 1 | S i => - u i end).
  set (phi := fun s => rsum p (fun j => a j * L j s)). set (err := fun s => rsum (S n) (fun i => b i * L (p + i)%nat s)).
  set (T := (p + S n)%nat) in *.
  pose proof (cauchy_schwarz (T + n) (fun s => if (s <? T)%nat then phi s else r (s - T)%nat / sqrt (nu (s - T)%nat))
                                     (fun s => if (s <? T)%nat then err s else - (sqrt (nu (s - T)%nat) * u (s - T)%nat))) as C.
  assert (SPLIT : forall (f g : nat -> R), rsum (T + n) (fun s => if (s <? T)%nat then f s else g (s - T)%nat) = rsum T f + rsum n g).
  { intros f g. rewrite rsum_app. f_equal; apply rsum_ext; intros i Hi.
    - assert ((i <? T)%nat = true) as -> by (apply Nat.ltb_lt; exact Hi). reflexivity.
    - assert ((T + i <? T)%nat = false) as -> by (apply Nat.ltb_ge; lia). f_equal. lia. }
  assert (C1 : rsum (T + n) (fun f => (if (f <? T)%nat then phi f else r (f - T)%nat / sqrt (nu (f - T)%nat)) * (if (f <? T)%nat then err f else - (sqrt (nu (f - T)%nat) * u (f - T)%nat)))
     = rsum T (fun s => phi s * err s) + rsum n (fun i => - (u i * r i))).
  { rewrite <- SPLIT. apply rsum_ext. intros s Hs. destruct (s <? T)%nat eqn:E; [reflexivity|]. apply Nat.ltb_ge in E.
    destruct (NR (s - T)%nat ltac:(lia)) as [P|(Z & Z')].
    - assert (0 < sqrt (nu (s - T)%nat)) by (apply sqrt_lt_R0; exact P). field. lra.
    - rewrite Z, Z'. unfold Rdiv. ring. }
  assert (C2 : rsum (T + n) (fun f => (if (f <? T)%nat then phi f else r (f - T)%nat / sqrt (nu (f - T)%nat)) ^ 2) = rsum T (fun s => phi s * phi s) + rsum n (fun i => r i ^ 2 / nu i)).
  { rewrite <- SPLIT. apply rsum_ext. intros s Hs. destruct (s <? T)%nat eqn:E; [ring|]. apply Nat.ltb_ge in E.
    destruct (NR (s - T)%nat ltac:(lia)) as [P|(Z & Z')].
    - assert (0 < sqrt (nu (s - T)%nat)) by (apply sqrt_lt_R0; exact P). 
      assert (Q : sqrt (nu (s - T)%nat) * sqrt (nu (s - T)%nat) = nu (s - T)%nat) by (apply sqrt_sqrt; lra). rewrite <- Q at 2. field. lra.
    - rewrite Z'. unfold Rdiv. ring. }
  assert (C3 : rsum (T + n) (fun f => (if (f <? T)%nat then err f else - (sqrt (nu (f - T)%nat) * u (f - T)%nat)) ^ 2) = rsum T (fun s => err s * err s) + rsum n (fun i => nu i * u i ^ 2)).
  { rewrite <- SPLIT. apply rsum_ext. intros s Hs. destruct (s <? T)%nat eqn:E; [ring|]. apply Nat.ltb_ge in E.
    assert (Q : sqrt (nu (s - T)%nat) * sqrt (nu (s - T)%nat) = nu (s - T)%nat) by (apply sqrt_sqrt, N0; lia).
    transitivity (sqrt (nu (s - T)%nat) * sqrt (nu (s - T)%nat) * u (s - T)%nat ^ 2); [ring|]. rewrite Q. ring. }
  cbv beta in C. rewrite C1, C2, C3 in C. clear C1 C2 C3 SPLIT.
  assert (I1 : rsum T (fun s => phi s * err s) = rsum p (fun j => a j * G j p) - rsum n (fun i => u i * rsum p (fun j => a j * G j (p + S i)%nat))).
  { unfold phi, err. rewrite (gram_inner T L p a (S n) b (fun j => j) (fun i => (p + i)%nat)).
    rewrite (rsum_ext p _ (fun j => a j * G j p + rsum n (fun i => - (u i * (a j * G j (p + S i)%nat))))).
    2:{ intros j Hj. rewrite rsum_S_l. rewrite <- HL by (unfold T; lia). rewrite Nat.add_0_r. cbn [b]. f_equal; [ring|].
        apply rsum_ext. intros i Hi. rewrite <- HL by (unfold T; lia). ring. }
    rewrite rsum_plus. unfold Rminus. f_equal. rewrite rsum_swap. rewrite <- rsum_opp. apply rsum_ext. intros i Hi.
    rewrite rsum_opp, <- rsum_scal. reflexivity. }
  assert (I2 : rsum T (fun s => phi s * phi s) = rsum p (fun i => rsum p (fun j => a i * a j * G i j))).
  { unfold phi. rewrite (gram_inner T L p a p a (fun j => j) (fun j => j)). apply rsum_ext. intros i Hi. apply rsum_ext. intros j Hj. rewrite <- HL by (unfold T; lia). reflexivity. }
  assert (I3 : rsum T (fun s => err s * err s) = G p p - 2 * rsum n (fun i => u i * G p (p + S i)%nat) + rsum n (fun i => rsum n (fun j => u i * u j * G (p + S i)%nat (p + S j)%nat))).
  { unfold err. rewrite (gram_inner T L (S n) b (S n) b (fun i => (p + i)%nat) (fun i => (p + i)%nat)).
    rewrite rsum_S_l. rewrite rsum_S_l.
    rewrite (rsum_ext n (fun i => rsum (S n) _) (fun i => - (u i * G p (p + S i)%nat) + rsum n (fun j => u i * u j * G (p + S i)%nat (p + S j)%nat))).
    2:{ intros i Hi. rewrite rsum_S_l. rewrite <- HL by (unfold T; lia). rewrite Nat.add_0_r. rewrite (SYM (p + S i)%nat p) by (unfold T; lia). cbn [b]. f_equal; [ring|].
        apply rsum_ext. intros j Hj. rewrite <- HL by (unfold T; lia). ring. }
    rewrite rsum_plus, rsum_opp. rewrite <- HL by (unfold T; lia). rewrite !Nat.add_0_r. cbn [b].
    rewrite (rsum_ext n (fun i => 1 * - u i * _) (fun i => - (u i * G p (p + S i)%nat))).
    2:{ intros i Hi. rewrite <- HL by (unfold T; lia). ring. }
    rewrite rsum_opp. ring. }
  rewrite I1, I2, I3 in C. clear I1 I2 I3 HL.
  assert (D1 : rsum n (fun i => u i * (rsum p (fun j => a j * G j (p + S i)%nat) + r i)) = rsum n (fun i => u i * rsum p (fun j => a j * G j (p + S i)%nat)) - rsum n (fun i => - (u i * r i))).
  { rewrite <- rsum_minus. apply rsum_ext. intros; ring. }
  assert (D2 : rsum n (fun i => rsum n (fun j => u i * u j * (G (p + S i)%nat (p + S j)%nat + if (i =? j)%nat then nu i else 0))) =
     rsum n (fun i => rsum n (fun j => u i * u j * G (p + S i)%nat (p + S j)%nat)) + rsum n (fun i => nu i * u i ^ 2)).
  { rewrite <- rsum_plus. apply rsum_ext. intros i Hi.
    rewrite (rsum_ext n _ (fun j => u i * u j * G (p + S i)%nat (p + S j)%nat + delta j i * (u i * u j * nu i))).
    2:{ intros j Hj. unfold delta. rewrite (Nat.eqb_sym j i). destruct (i =? j)%nat; ring. }
    rewrite rsum_plus, rsum_delta by exact Hi. ring. }
  rewrite D1, D2. match type of C with ?A <= ?B => apply Rle_trans with A; [right; ring|apply Rle_trans with B; [exact C|right; ring]] end.
Qed.
End CS.

Section N.
Variables (gamma : R -> R) (kv : R -> R -> R).

Lemma lk_cov_sym_pts K F cur kw (pt : nat -> nat -> R) i j :
  lk_cov gamma kv K F cur kw (fun f => pt i f - pt j f) = lk_cov gamma kv K F cur kw (fun f => pt j f - pt i f).
Proof. rewrite !lk_cov_points. rewrite sqdist_sym. reflexivity. Qed.

Lemma native_core K cur m test train x n q u p z a (y : nat -> R) : lk_ok K (feature_count train) cur [] ->
  let k := lk_cov gamma kv K (feature_count train) cur [] in
  (forall j, (j < n)%nat -> 0 <= noise_at m None x j) ->
  (forall j, (j < n)%nat -> 0 < noise_at m None x j \/ noise_at m None x j = 0 /\ y (q j) = span k p z a (feature train (q j))) ->
  (span k p z a (feature test x) - rsum n (fun j => u j * y (q j))) ^ 2 <=
  (span_norm2 k p z a + misfit m train x n q y (span k p z a)) * error_variance k m test train x n q u.
Proof.
  intros OK k N0 NR.
  set (pt := fun j => if (j <? p)%nat then z j else match (j - p)%nat with O => feature test x | S i => feature train (q i) end).
  assert (PZ : forall j, (j < p)%nat -> pt j = z j) by (intros j Hj; unfold pt; apply Nat.ltb_lt in Hj; rewrite Hj; reflexivity).
  assert (PX : pt p = feature test x) by (unfold pt; rewrite Nat.ltb_irrefl, Nat.sub_diag; reflexivity).
  assert (PQ : forall i, pt (p + S i)%nat = feature train (q i)).
  { intros i. unfold pt. assert ((p + S i <? p)%nat = false) as -> by (apply Nat.ltb_ge; lia). replace (p + S i - p)%nat with (S i) by lia. reflexivity. }
  pose proof (kernel_cs k pt p n (lk_cov_psd gamma kv K _ cur [] pt (p + S n) OK) (fun i j _ _ => lk_cov_sym_pts K _ cur [] pt i j)
    a u (fun i => y (q i) - span k p z a (feature train (q i))) (noise_at m None x) N0) as C.
  assert (NR' : forall i, (i < n)%nat -> 0 < noise_at m None x i \/ noise_at m None x i = 0 /\ y (q i) - span k p z a (feature train (q i)) = 0).
  { intros i Hi. destruct (NR i Hi) as [P|(Z & E)]; [left; exact P|right; split; [exact Z|rewrite E; ring]]. }
  specialize (C NR').
  assert (SP : forall i, rsum p (fun j => a j * k (fun f => pt j f - pt (p + S i)%nat f)) = span k p z a (feature train (q i))).
  { intros i. unfold span. apply rsum_ext. intros j Hj. f_equal. unfold k. rewrite lk_cov_sym_pts, PQ, PZ by exact Hj. reflexivity. }
  assert (SX : rsum p (fun j => a j * k (fun f => pt j f - pt p f)) = span k p z a (feature test x)).
  { unfold span. apply rsum_ext. intros j Hj. f_equal. unfold k. rewrite lk_cov_sym_pts, PX, PZ by exact Hj. reflexivity. }
  assert (SN : rsum p (fun i => rsum p (fun j => a i * a j * k (fun f => pt i f - pt j f))) = span_norm2 k p z a).
  { unfold span_norm2. apply rsum_ext. intros i Hi. apply rsum_ext. intros j Hj. rewrite !PZ by assumption. reflexivity. }
  cbv zeta beta in C. rewrite SX, SN in C.
  rewrite (rsum_ext n (fun i => u i * (_ + _)) (fun j => u j * y (q j))) in C by (intros i Hi; rewrite SP; ring).
  eapply Rle_trans; [apply C|].
  right. f_equal. unfold error_variance, kcov. rewrite PX. f_equal; [f_equal; f_equal; apply rsum_ext; intros i Hi; rewrite PQ; reflexivity|].
    apply rsum_ext. intros i Hi. apply rsum_ext. intros j Hj. unfold obs_cov, kcov. rewrite !PQ. reflexivity.
Qed.

Lemma psd_quad K F cur kw p z a : lk_ok K F cur kw -> 0 <= span_norm2 (lk_cov gamma kv K F cur kw) p z a.
Proof.
  intros OK. pose proof (lk_cov_psd gamma kv K F cur kw z p OK a) as P. eapply Rle_trans; [exact P|]. right.
  unfold span_norm2, quad. apply rsum_ext. intros i _. apply rsum_ext. intros j _. ring.
Qed.

(** Near a training row. *)
Lemma matern_near f nu d : f <> General -> 0 <= d -> 1 - 3 * d <= matern_value gamma kv f nu d.
Proof.
  intros NG Hd. assert (EXP : forall t, 1 - t <= exp (- t)) by (intros t; pose proof (exp_ineq1_le (- t)); lra).
  destruct f; cbn [matern_value]; [| | | |congruence].
  - unfold matern_half. pose proof (EXP d). lra.
  - unfold matern_three_halves. assert (H3 : 0 <= sqrt 3 <= 3). { split; [apply sqrt_pos|]. apply Rle_trans with (sqrt (3 * 3)); [apply sqrt_le_1; lra|right; apply sqrt_square; lra]. }
    set (t := sqrt 3 * d). assert (0 <= t <= 3 * d) by (unfold t; split; [apply Rmult_le_pos; lra|apply Rmult_le_compat_r; lra]).
    pose proof (EXP t). pose proof (exp_pos (- t)). assert (0 <= t * exp (- t)) by (apply Rmult_le_pos; lra). lra.
  - unfold matern_five_halves. assert (H5 : 0 <= sqrt 5 <= 3). { split; [apply sqrt_pos|]. apply Rle_trans with (sqrt (3 * 3)); [apply sqrt_le_1; lra|right; apply sqrt_square; lra]. }
    set (t := sqrt 5 * d). assert (0 <= t <= 3 * d) by (unfold t; split; [apply Rmult_le_pos; lra|apply Rmult_le_compat_r; lra]).
    pose proof (EXP t). pose proof (exp_pos (- t)). assert (0 <= t * exp (- t)) by (apply Rmult_le_pos; lra).
    match goal with |- _ <= (1 + ?A + ?B) * _ => assert (0 <= B) by nra; assert (0 <= B * exp (- t)) by (apply Rmult_le_pos; lra) end. lra.
  - unfold gaussian. destruct (Rle_dec d 1) as [L|L].
    + eapply Rle_trans; [|apply exp_ineq1_le]. nra.
    + pose proof (exp_pos (- d ^ 2 / 2)). lra.
Qed.

Lemma scaled_le d F cur kw L x y : (forall f, (f < F)%nat -> L <= scale_of d cur kw f) -> 0 < L ->
  sqrt (scaled_sqdist F (scale_of d cur kw) (fun f => x f - y f) (fun _ => 0)) <= euclid F x y / L.
Proof.
  intros B L0. unfold euclid. apply Rle_trans with (sqrt (sqdist F x y / L ^ 2)).
  - apply sqrt_le_1_alt. unfold sqdist, scaled_sqdist, Rdiv. rewrite <- rsum_scal_r. apply rsum_le. intros f Hf.
    pose proof (B f Hf) as lL. replace (x f - y f - 0) with (x f - y f) by ring. rewrite Rpow_mult_distr.
    apply Rmult_le_compat_l; [apply pow2_ge_0|]. rewrite pow_inv. apply Rinv_le_contravar; [apply pow_lt; exact L0|].
    apply pow_incr. lra.
  - right. rewrite sqrt_div_alt by (apply pow_lt; exact L0). rewrite sqrt_pow2 by lra. reflexivity.
Qed.

Lemma lk_near K cur kw test train x a L : lk_ok K (feature_count train) cur kw -> 0 < L ->
  (forall f, (f < feature_count train)%nat -> L <= scale_of (lk_def K) cur kw f) ->
  1 - 3 * (euclid (feature_count train) (feature test x) (feature train a) / L) <= kcov (lk_cov gamma kv K (feature_count train) cur kw) test train x a.
Proof.
  intros (OK & HF & POS & M) L0 B.
  pose proof (scaled_le (lk_def K) (feature_count train) cur kw L (feature test x) (feature train a) B L0) as G.
  set (r := sqrt (scaled_sqdist (feature_count train) (scale_of (lk_def K) cur kw) (fun f => feature test x f - feature train a f) (fun _ => 0))) in *.
  assert (R0 : 0 <= r) by apply sqrt_pos.
  apply Rle_trans with (1 - 3 * r); [lra|]. unfold kcov. destruct K as [d|d sm p]; cbn [lk_cov lk_def] in *.
  - unfold rbf_cov. pose proof (matern_near Infinite 0 r ltac:(discriminate) R0) as X. cbn [matern_value] in X. unfold gaussian in X.
    replace (r ^ 2) with (scaled_sqdist (feature_count train) (scale_of d cur kw) (fun f => feature test x f - feature train a f) (fun _ => 0)) in X; [exact X|].
    unfold r. rewrite <- Rsqr_pow2, Rsqr_sqrt; [reflexivity|]. apply rsum_nonneg. intros; apply pow2_ge_0.
  - unfold matern_cov. apply matern_near; [apply M|exact R0].
Qed.

Lemma error_one K cur m test train x n q : lk_ok K (feature_count train) cur [] -> (0 < n)%nat ->
  let k := lk_cov gamma kv K (feature_count train) cur [] in
  error_variance k m test train x n q (fun j => delta j 0) = 2 * (1 - kcov k test train x (q 0%nat)) + noise_at m None x 0.
Proof.
  intros OK Hn k. unfold error_variance.
  rewrite (rsum_delta n 0 (fun j => kcov k test train x (q j))) by exact Hn.
  rewrite (rsum_ext n _ (fun i => delta i 0 * rsum n (fun j => delta j 0 * obs_cov k m train x q i j))).
  2:{ intros i Hi. rewrite <- rsum_scal. apply rsum_ext. intros; ring. }
  rewrite (rsum_delta n 0 (fun i => rsum n (fun j => delta j 0 * obs_cov k m train x q i j))) by exact Hn.
  rewrite (rsum_delta n 0 (fun j => obs_cov k m train x q 0 j)) by exact Hn.
  unfold obs_cov, kcov, k. cbn [Nat.eqb].
  rewrite (lk_cov_0 gamma kv K _ cur [] (feature test) x OK), (lk_cov_0 gamma kv K _ cur [] (feature train) (q 0%nat) OK). ring.
Qed.

Variable ls : lsolver.
Hypothesis EX : exact_solver ls.
Variable knn : dict nnval -> list point -> point -> nat -> list (nat * R).
Variable hnsw : nnval -> list point -> point -> nat -> list (nat * R).
Variable dist : dict nnval -> point -> point -> R.
Hypothesis SK : sklearn_ok knn dist.

(** ** Theorems *)
Lemma error_bound en method kw w g K cur test train targets N M n ex :
  regression en method kw w test train targets N M n ex -> documented g K cur [] train N M n ->
  exists mean var q,
    regress_any ls knn hnsw (Univariate (lib_model gamma kv g K cur)) test train w targets = Ok (mean, var) /\
    forall x, (x < M)%nat -> nearest_rows test train N x n (q x) /\
      forall p z a e, inb ex e ->
        let k := lk_cov gamma kv K (feature_count train) cur [] in
        let fn := span k p z a in
        let y := fun b => at_ targets (b :: e) in
        (forall j, (j < n)%nat -> noise_at (gp_noise g) None x j = 0 -> y (q x j) = fn (feature train (q x j))) ->
        gp_var_scale g * (at_ mean (x :: e) - fn (feature test x)) ^ 2 <=
        (span_norm2 k p z a + misfit (gp_noise g) train x n (q x) y fn) * at_ var [x].
Proof.
  intros (Hm & He & Hw & Hn & D1 & D2 & ND & FC & HT & NC) (OK & SKo & K1 & SC & NF & SN).
  destruct (best_linear gamma kv ls EX knn hnsw dist SK en method kw w g K cur test train targets N M n ex) as (mean & var & q & u & E & V); auto.
  exists mean, var, q. split; [exact E|]. intros x Hx. destruct (V x Hx) as (NR & MU & VA & _). split; [exact NR|].
  intros p z a e He' k fn y HY.
  assert (N0 : forall j, (j < n)%nat -> 0 <= noise_at (gp_noise g) None x j).
  { intros j Hj. destruct SN as [P|[P _]]; [left|]; apply P; assumption. }
  pose proof (native_core K cur (gp_noise g) test train x n (q x) (u x) p z a y OK N0) as C.
  assert (NR' : forall j, (j < n)%nat -> 0 < noise_at (gp_noise g) None x j \/ noise_at (gp_noise g) None x j = 0 /\ y (q x j) = span k p z a (feature train (q x j))).
  { intros j Hj. destruct (N0 j Hj) as [P|P]; [left; exact P|right; split; [symmetry; exact P|apply HY; auto]]. }
  specialize (C NR'). rewrite (MU e He'), VA. fold k in C |- *. fold fn in C |- *.
  apply (Rmult_le_compat_l (gp_var_scale g)) in C; [|exact SC].
  match type of C with ?A <= ?B => apply Rle_trans with A; [right; unfold y; ring|apply Rle_trans with B; [exact C|right; ring]] end.
Qed.

Lemma variance_near en method kw w g K cur test train targets N M n ex L nu :
  regression en method kw w test train targets N M n ex -> documented g K cur [] train N M n ->
  0 < L -> (forall f, (f < feature_count train)%nat -> L <= scale_of (lk_def K) cur [] f) ->
  (forall x i, (x < M)%nat -> (i < n)%nat -> noise_at (gp_noise g) None x i <= nu) ->
  exists mean var,
    regress_any ls knn hnsw (Univariate (lib_model gamma kv g K cur)) test train w targets = Ok (mean, var) /\
    forall x a, (x < M)%nat -> (a < N)%nat ->
      at_ var [x] <= gp_var_scale g * (6 * euclid (feature_count train) (feature test x) (feature train a) / L + nu).
Proof.
  intros (Hm & He & Hw & Hn & D1 & D2 & ND & FC & HT & NC) (OK & SKo & K1 & SC & NF & SN) L0 HL HN.
  destruct (best_linear gamma kv ls EX knn hnsw dist SK en method kw w g K cur test train targets N M n ex) as (mean & var & q & u & E & V); auto.
  exists mean, var. split; [exact E|]. intros x a Hx Ha. destruct (V x Hx) as (NR & _ & VA & OPT). rewrite VA.
  apply Rmult_le_compat_l; [exact SC|]. eapply Rle_trans; [apply (OPT (fun j => delta j 0))|].
  rewrite error_one by (auto; lia). pose proof (HN x 0%nat Hx ltac:(lia)) as H1.
  pose proof (lk_near K cur [] test train x (q x 0%nat) L OK L0 HL) as H2.
  assert (H3 : euclid (feature_count train) (feature test x) (feature train (q x 0%nat)) <= euclid (feature_count train) (feature test x) (feature train a)).
  { unfold euclid. apply sqrt_le_1_alt. destruct NR as (_ & _ & SO & OUT).
    destruct (list_in_dec n (q x) a) as [(i & Hi & <-)|NI]; [apply (SO 0%nat i); lia|apply (OUT a Ha NI 0%nat); lia]. }
  apply (Rmult_le_compat_r (/ L)) in H3; [|left; apply Rinv_0_lt_compat; exact L0]. unfold Rdiv in *. lra.
Qed.

Lemma rate en method kw w g K cur test train targets N M n ex L p z a e :
  regression en method kw w test train targets N M n ex -> documented g K cur [] train N M n ->
  0 < L -> (forall f, (f < feature_count train)%nat -> L <= scale_of (lk_def K) cur [] f) ->
  (forall x i, (x < M)%nat -> (i < n)%nat -> noise_at (gp_noise g) None x i = 0) -> 0 < gp_var_scale g -> inb ex e ->
  let k := lk_cov gamma kv K (feature_count train) cur [] in
  let fn := span k p z a in
  (forall b, (b < N)%nat -> at_ targets (b :: e) = fn (feature train b)) ->
  exists mean var,
    regress_any ls knn hnsw (Univariate (lib_model gamma kv g K cur)) test train w targets = Ok (mean, var) /\
    forall x b, (x < M)%nat -> (b < N)%nat ->
      (at_ mean (x :: e) - fn (feature test x)) ^ 2 <= 6 * span_norm2 k p z a * euclid (feature_count train) (feature test x) (feature train b) / L.
Proof.
  intros RG DO L0 HL HN SC He k fn HT.
  destruct (error_bound en method kw w g K cur test train targets N M n ex RG DO) as (mean & var & q & E & V).
  destruct (variance_near en method kw w g K cur test train targets N M n ex L 0 RG DO L0 HL) as (mean' & var' & E' & V').
  { intros x i Hx Hi. right. apply HN; assumption. }
  rewrite E in E'. assert (mean' = mean) by congruence. assert (var' = var) by congruence. subst mean' var'. clear E'.
  exists mean, var. split; [exact E|]. intros x b Hx Hb. destruct (V x Hx) as (NR & B). specialize (B p z a e He). cbv zeta in B. fold k fn in B.
  assert (B' : gp_var_scale g * (at_ mean (x :: e) - fn (feature test x)) ^ 2 <= span_norm2 k p z a * at_ var [x]).
  { eapply Rle_trans; [apply B|].
    - intros j Hj _. apply HT. apply NR. exact Hj.
    - right. f_equal. unfold misfit. rewrite (rsum_ext n _ (fun _ => 0)); [rewrite rsum_0; ring|]. intros j Hj. rewrite HN by assumption.
      rewrite HT by (apply NR; exact Hj). unfold Rdiv. ring. }
  clear B. pose proof (V' x b Hx Hb) as C.
  assert (P : 0 <= span_norm2 k p z a).
  { destruct DO as (OK & _). exact (psd_quad K _ cur [] p z a OK). }
  apply (Rmult_le_compat_l _ _ _ P) in C. apply (Rmult_le_reg_l (gp_var_scale g)); [exact SC|].
  eapply Rle_trans; [exact B'|]. eapply Rle_trans; [exact C|]. right. unfold Rdiv. ring.
Qed.
End N.
