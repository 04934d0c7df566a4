(** Proofs about predictions far from the data, and about the sensitivity to the responses. *)
From Coq Require Import Lia Lra.
From Verif Require Import Base BaseFacts NdModel NdFacts RSum HyperModel NamedModel NamedSpec LinAlgModel LinAlgSpec LinAlgFacts Gauss
  GPModel NoiseModel MuyGPSModel GPSpec GPTheorems WellPosedProofs TensorModel TensorSpec TensorProofs KernelModel KernelSpec KernelProofs
  NeighborsModel NeighborsSpec NeighborsProofs FlowModel FlowSpec FlowProofs PointwiseSpec LibSpec LibProofs
  MultiModel DriverModel WorkModel WorkSpec WorkProofs WorkLemmas BestSpec BestProofs SimProofs LocalSpec FarSpec.
Local Open Scope R_scope.

(** ** Decay of the kernels *)
Lemma exp_ge_4 t : 0 <= t -> (1 + t / 4) ^ 4 <= exp t.
Proof.
  intros H. replace (exp t) with (exp (t / 4) ^ 4).
  - apply pow_incr. split; [lra|]. apply exp_ineq1_le.
  - cbn [pow]. rewrite Rmult_1_r, <- !exp_plus. f_equal. lra.
Qed.
Lemma poly_exp t p : 0 <= t -> p <= 6 * (1 + t / 4) ^ 4 -> p * exp (- t) <= 6.
Proof.
  intros H P. rewrite exp_Ropp. apply Rle_trans with (6 * exp t * / exp t); [|right; field; apply Rgt_not_eq, exp_pos].
  apply Rmult_le_compat_r; [left; apply Rinv_0_lt_compat, exp_pos|]. pose proof (exp_ge_4 t H). lra.
Qed.
Lemma sqrt_ge_1 a : 1 <= a -> 1 <= sqrt a.
Proof. intros H. rewrite <- sqrt_1. apply sqrt_le_1_alt. exact H. Qed.

Lemma matern_decay gamma kv f nu d : f <> General -> 0 <= d -> 0 <= matern_value gamma kv f nu d /\ matern_value gamma kv f nu d * d <= 6.
Proof.
  intros N Hd. destruct f; try (exfalso; apply N; reflexivity); cbn [matern_value].
  - unfold matern_half. split; [left; apply exp_pos|]. rewrite Rmult_comm. apply poly_exp; [exact Hd|].
    cbn [pow]. nra.
  - unfold matern_three_halves. set (t := sqrt 3 * d). assert (S1 : 1 <= sqrt 3) by (apply sqrt_ge_1; lra).
    assert (T : d <= t) by (unfold t; apply Rle_trans with (1 * d); [lra|apply Rmult_le_compat_r; lra]). assert (T0 : 0 <= t) by lra. pose proof (exp_pos (- t)).
    split; [apply Rmult_le_pos; lra|].
    apply Rle_trans with ((1 + t) * t * exp (- t)); [|apply poly_exp; [exact T0|cbn [pow]; nra]].
    replace ((1 + t) * exp (- t) * d) with ((1 + t) * exp (- t) * d) by ring.
    replace ((1 + t) * t * exp (- t)) with ((1 + t) * exp (- t) * t) by ring.
    apply Rmult_le_compat_l; [apply Rmult_le_pos; lra|exact T].
  - unfold matern_five_halves. set (t := sqrt 5 * d). assert (S1 : 1 <= sqrt 5) by (apply sqrt_ge_1; lra).
    assert (T : d <= t) by (unfold t; apply Rle_trans with (1 * d); [lra|apply Rmult_le_compat_r; lra]). assert (T0 : 0 <= t) by lra. pose proof (exp_pos (- t)).
    assert (P0 : 0 <= 1 + t + t ^ 2 / 3) by (cbn [pow]; nra).
    replace (1 + t + 5 * d ^ 2 / 3) with (1 + t + t ^ 2 / 3)
      by (unfold t; rewrite Rpow_mult_distr; replace (sqrt 5 ^ 2) with 5; [reflexivity|rewrite <- Rsqr_pow2, Rsqr_sqrt; lra]).
    split; [apply Rmult_le_pos; lra|].
    apply Rle_trans with ((1 + t + t ^ 2 / 3) * t * exp (- t)).
    + replace ((1 + t + t ^ 2 / 3) * t * exp (- t)) with ((1 + t + t ^ 2 / 3) * exp (- t) * t) by ring.
      apply Rmult_le_compat_l; [apply Rmult_le_pos; lra|exact T].
    + apply poly_exp; [exact T0|]. assert (0 <= t ^ 2) by (apply pow2_ge_0). assert (0 <= t ^ 4) by (replace (t ^ 4) with (t ^ 2 * t ^ 2) by ring; nra).
      assert (0 <= t ^ 3) by (apply pow_le; exact T0).
      replace (6 * (1 + t / 4) ^ 4) with (6 + 6 * t + 9 / 4 * t ^ 2 + 3 / 8 * t ^ 3 + 3 / 128 * t ^ 4) by field.
      replace ((1 + t + t ^ 2 / 3) * t) with (t + t ^ 2 + t ^ 3 / 3) by field. lra.
  - unfold gaussian. split; [left; apply exp_pos|]. pose proof (exp_pos (- d ^ 2 / 2)).
    replace (- d ^ 2 / 2) with (- (d ^ 2 / 2)) by field. rewrite Rmult_comm. apply poly_exp; [pose proof (pow2_ge_0 d); lra|].
    set (s := d ^ 2). assert (0 <= s) by apply pow2_ge_0. replace (6 * (1 + s / 2 / 4) ^ 4) with (6 * ((1 + s / 8) ^ 2) ^ 2) by field.
    assert (E : (1 + s / 8) ^ 2 >= 1 + s / 4) by (cbn [pow]; nra).
    assert (E2 : ((1 + s / 8) ^ 2) ^ 2 >= (1 + s / 4) ^ 2) by (cbn [pow] in *; nra).
    unfold s in *. cbn [pow] in *. nra.
Qed.

Lemma scale_bound d F cur kw : positive_scales d F cur kw -> exists L, 0 < L /\ forall f, (f < F)%nat -> scale_of d cur kw f <= L.
Proof.
  intros P. exists (1 + rsum F (scale_of d cur kw)).
  assert (Q : forall f, (f < F)%nat -> 0 <= scale_of d cur kw f) by (intros f Hf; left; apply P; exact Hf).
  pose proof (rsum_nonneg F _ Q). split; [lra|]. intros f Hf. pose proof (rsum_term_le F _ f Q Hf). lra.
Qed.

Lemma scaled_ge d F cur kw L x y : positive_scales d F cur kw -> (forall f, (f < F)%nat -> scale_of d cur kw f <= L) -> 0 < L ->
  euclid F x y / L <= sqrt (scaled_sqdist F (scale_of d cur kw) (fun f => x f - y f) (fun _ => 0)).
Proof.
  intros P B L0. unfold euclid. apply Rle_trans with (sqrt (sqdist F x y / L ^ 2)).
  - right. rewrite sqrt_div_alt by (apply pow_lt; exact L0). rewrite sqrt_pow2 by lra. reflexivity.
  - apply sqrt_le_1_alt. unfold sqdist, scaled_sqdist, Rdiv. rewrite <- rsum_scal_r. apply rsum_le. intros f Hf.
    pose proof (P f Hf) as l0. pose proof (B f Hf) as lL. replace (x f - y f - 0) with (x f - y f) by ring. rewrite Rpow_mult_distr.
    apply Rmult_le_compat_l; [apply pow2_ge_0|]. rewrite pow_inv by lra. apply Rinv_le_contravar; [apply pow_lt; exact l0|].
    apply pow_incr. lra.
Qed.

Lemma lk_decay gamma kv K cur kw test train x a L : lk_ok K (feature_count train) cur kw -> 0 < L ->
  (forall f, (f < feature_count train)%nat -> scale_of (lk_def K) cur kw f <= L) ->
  let k := kcov (lk_cov gamma kv K (feature_count train) cur kw) test train x a in
  0 <= k /\ k * euclid (feature_count train) (feature test x) (feature train a) <= 6 * L.
Proof.
  intros (OK & HF & POS & M) L0 B k.
  pose proof (scaled_ge (lk_def K) (feature_count train) cur kw L (feature test x) (feature train a) POS B L0) as G.
  set (r := sqrt (scaled_sqdist (feature_count train) (scale_of (lk_def K) cur kw) (fun f => feature test x f - feature train a f) (fun _ => 0))) in *.
  assert (R0 : 0 <= r) by apply sqrt_pos.
  assert (S : 0 <= k /\ k * r <= 6).
  { unfold k, kcov. destruct K as [d|d sm p]; cbn [lk_cov lk_def] in *.
    - unfold rbf_cov. pose proof (matern_decay gamma kv Infinite 0 r ltac:(discriminate) R0) as X. cbn [matern_value] in X. unfold gaussian in X.
      replace (r ^ 2) with (scaled_sqdist (feature_count train) (scale_of d cur kw) (fun f => feature test x f - feature train a f) (fun _ => 0)) in X; [exact X|].
      unfold r. rewrite <- Rsqr_pow2, Rsqr_sqrt; [reflexivity|]. apply rsum_nonneg. intros; apply pow2_ge_0.
    - unfold matern_cov. apply matern_decay; [apply M|exact R0]. }
  split; [apply S|]. set (e := euclid (feature_count train) (feature test x) (feature train a)) in *.
  assert (E : e <= L * r). { apply (Rmult_le_compat_l L) in G; [|lra]. replace (L * (e / L)) with e in G by (field; lra). exact G. }
  apply Rle_trans with (k * (L * r)); [apply Rmult_le_compat_l; [apply S|exact E]|]. replace (k * (L * r)) with (L * (k * r)) by ring.
  replace (6 * L) with (L * 6) by ring. apply Rmult_le_compat_l; [lra|apply S].
Qed.

(** ** Coercive matrices *)
Definition coercive (n : nat) (A : nat -> nat -> R) (c : R) : Prop := forall v, c * rsum n (fun i => v i ^ 2) <= quad n A v.

Lemma coercive_weights n A k w c : 0 < c -> coercive n A c -> solves n A w k ->
  c * rsum n (fun i => w i ^ 2) <= dot n w k /\ c ^ 2 * rsum n (fun i => w i ^ 2) <= rsum n (fun i => k i ^ 2) /\
  c * dot n w k <= rsum n (fun i => k i ^ 2).
Proof.
  intros C0 CO SO. pose proof (CO w) as Q. rewrite (quad_solves n A w k SO) in Q. split; [exact Q|].
  pose proof (cauchy_schwarz n w k) as CS. fold (dot n w k) in CS.
  set (W := rsum n (fun i => w i ^ 2)) in *. set (t := dot n w k) in *. set (Z := rsum n (fun i => k i ^ 2)) in *.
  assert (W0 : 0 <= W) by (apply rsum_nonneg; intros; apply pow2_ge_0). assert (Z0 : 0 <= Z) by (apply rsum_nonneg; intros; apply pow2_ge_0).
  assert (T : c * t <= Z).
  { destruct W0 as [W0|W0].
    - assert (t0 : 0 < t) by (apply Rlt_le_trans with (c * W); [apply Rmult_lt_0_compat; lra|exact Q]).
      apply Rmult_le_reg_l with (W * t); [apply Rmult_lt_0_compat; lra|].
      apply Rle_trans with (t ^ 2 * t); [cbn [pow]; nra|]. cbn [pow] in *. nra.
    - assert (t = 0); [|cbn [pow] in *; nra]. rewrite <- W0 in CS. cbn [pow] in CS. nra. }
  split; [|exact T]. apply Rle_trans with (c * t); [|exact T]. cbn [pow]. nra.
Qed.

Lemma coercive_ext n A A' c : (forall i j, (i < n)%nat -> (j < n)%nat -> A i j = A' i j) -> coercive n A c -> coercive n A' c.
Proof. intros E H v. rewrite <- (quad_ext n A A' v v E) by auto. apply H. Qed.

Lemma coercive_diag n A d nu : psd n A -> (forall i, (i < n)%nat -> nu <= d i) -> coercive n (plus_diag A d) nu.
Proof.
  intros P D v. rewrite (quad_ext n (plus_diag A d) (fun i j => A i j + delta i j * d i) v v); auto.
  - rewrite quad_plus, quad_diag. pose proof (P v). rewrite <- rsum_scal.
    assert (rsum n (fun i => nu * v i ^ 2) <= rsum n (fun i => d i * (v i * v i))); [|lra].
    apply rsum_le. intros i Hi. pose proof (D i Hi). pose proof (pow2_ge_0 (v i)). cbn [pow] in *. nra.
  - intros i j Hi Hj. unfold plus_diag, delta. destruct (Nat.eqb i j); ring.
Qed.
Lemma coercive_diag0 n A d c : coercive n A c -> (forall i, (i < n)%nat -> 0 <= d i) -> coercive n (plus_diag A d) c.
Proof.
  intros P D v. rewrite (quad_ext n (plus_diag A d) (fun i j => A i j + delta i j * d i) v v); auto.
  - rewrite quad_plus, quad_diag. pose proof (P v).
    assert (0 <= rsum n (fun i => d i * (v i * v i))); [|lra].
    apply rsum_nonneg. intros i Hi. pose proof (D i Hi). pose proof (pow2_ge_0 (v i)). cbn [pow] in *. nra.
  - intros i j Hi Hj. unfold plus_diag, delta. destruct (Nat.eqb i j); ring.
Qed.

Lemma sq_prod_le n (v : nat -> R) i j : (i < n)%nat -> (j < n)%nat -> Rabs (v i * v j) <= rsum n (fun l => v l ^ 2).
Proof.
  intros Hi Hj. pose proof (rsum_term_le n (fun l => v l ^ 2) i (fun l _ => pow2_ge_0 (v l)) Hi) as A.
  pose proof (rsum_term_le n (fun l => v l ^ 2) j (fun l _ => pow2_ge_0 (v l)) Hj) as B. cbn beta in A, B.
  pose proof (pow2_ge_0 (v i - v j)). pose proof (pow2_ge_0 (v i + v j)). apply Rabs_le. cbn [pow] in *. split; nra.
Qed.

Lemma pd_coercive n A : symmetric n A -> pd n A -> exists c, 0 < c /\ coercive n A c.
Proof.
  intros SY PD. pose proof (pd_nonsingular n A PD) as NS.
  destruct (proj1 (proj2 gauss_exact n n A (fun i j => delta i j)) NS) as (X & EX).
  pose proof (proj1 gauss_exact n n A _ X EX) as INV.
  set (C := 1 + rsum n (fun i => rsum n (fun j => Rabs (X i j)))).
  assert (C0 : 0 < C).
  { assert (0 <= rsum n (fun i => rsum n (fun j => Rabs (X i j)))); [|unfold C; lra].
    apply rsum_nonneg. intros i _. apply rsum_nonneg. intros j _. apply Rabs_pos. }
  exists (/ C). split; [apply Rinv_0_lt_compat; exact C0|]. intros v.
  set (V := rsum n (fun i => v i ^ 2)). assert (V0 : 0 <= V) by (apply rsum_nonneg; intros; apply pow2_ge_0).
  set (y := fun i => rsum n (fun j => X i j * v j)).
  assert (SO : solves n A y v).
  { intros i Hi. unfold y.
    rewrite (rsum_ext n _ (fun j => rsum n (fun l => A i j * X j l * v l))) by (intros j Hj; rewrite <- rsum_scal; apply rsum_ext; intros; ring).
    rewrite rsum_swap. rewrite (rsum_ext n _ (fun l => delta i l * v l)); [apply rsum_delta_l; exact Hi|].
    intros l Hl. rewrite rsum_scal_r. f_equal. apply (INV l Hl i Hi). }
  assert (YB : dot n y v <= C * V).
  { unfold dot, y. apply Rle_trans with (rsum n (fun i => rsum n (fun j => Rabs (X i j) * V))).
    - apply rsum_le. intros i Hi. rewrite <- rsum_scal_r. apply rsum_le. intros j Hj.
      replace (X i j * v j * v i) with (X i j * (v i * v j)) by ring.
      apply Rle_trans with (Rabs (X i j * (v i * v j))); [apply Rle_abs|]. rewrite Rabs_mult.
      apply Rmult_le_compat_l; [apply Rabs_pos|]. apply sq_prod_le; auto.
    - rewrite (rsum_ext n _ (fun i => rsum n (fun j => Rabs (X i j)) * V)) by (intros; apply rsum_scal_r).
      rewrite rsum_scal_r. unfold C. nra. }
  assert (SO2 : solves n A (fun i => / C * y i) (fun i => / C * v i)).
  { intros i Hi. rewrite <- (SO i Hi), <- rsum_scal. apply rsum_ext. intros; ring. }
  pose proof (quad_diff n A _ v _ SY SO2) as QD.
  assert (Q0 : 0 <= quad n A (fun i => v i - / C * y i)).
  { destruct (classic_zero n (fun i => v i - / C * y i)) as [Z|NZ]; [|left; apply PD; exact NZ].
    right. symmetry. unfold quad. rewrite (rsum_ext n _ (fun _ => 0)); [apply rsum_0|]. intros i Hi.
    rewrite (rsum_ext n _ (fun _ => 0)); [apply rsum_0|]. intros j Hj. rewrite (Z i Hi). ring. }
  assert (D1 : dot n v (fun i => / C * v i) = / C * V).
  { unfold dot, V. rewrite <- rsum_scal. apply rsum_ext. intros; ring. }
  assert (D2 : dot n (fun i => / C * y i) (fun i => / C * v i) = / C * / C * dot n y v).
  { unfold dot. rewrite <- rsum_scal. apply rsum_ext. intros; ring. }
  rewrite D1, D2 in QD. rewrite QD in Q0.
  assert (/ C * / C * dot n y v <= / C * V); [|lra].
  replace (/ C * V) with (/ C * / C * (C * V)) by (field; lra). apply Rmult_le_compat_l; [|exact YB].
  left. apply Rmult_lt_0_compat; apply Rinv_0_lt_compat; exact C0.
Qed.

Lemma coercive_sub N n A c q : 0 < c -> coercive N A c -> (forall i, (i < n)%nat -> (q i < N)%nat) ->
  (forall i j, (i < n)%nat -> (j < n)%nat -> q i = q j -> i = j) -> coercive n (fun i j => A (q i) (q j)) c.
Proof.
  intros C0 CO B I v. pose proof (CO (padded n q v)) as H.
  assert (E : quad N A (padded n q v) = quad n (fun i j => A (q i) (q j)) v).
  { unfold quad. transitivity (rsum N (fun i => rsum N (fun j => padded n q v i * padded n q v j * A i j))).
    - apply rsum2_ext. intros; ring.
    - rewrite (padded_quad n N q v A B). apply rsum2_ext. intros; ring. }
  rewrite E in H. replace (rsum N (fun i => padded n q v i ^ 2)) with (rsum n (fun i => v i ^ 2)) in H; [exact H|].
  transitivity (rsum N (fun i => padded n q v i * padded n q v i)); [|apply rsum_ext; intros; ring].
  rewrite (padded_sum n N q v (padded n q v) B). apply rsum_ext. intros i Hi. unfold padded.
  rewrite (rsum_ext n _ (fun j => delta i j * v j)).
  - rewrite rsum_delta_l by exact Hi. ring.
  - intros j Hj. unfold delta. destruct (Nat.eqb_spec (q j) (q i)) as [Eq|NE], (Nat.eqb_spec i j) as [Ei|Ni]; auto.
    + exfalso. apply Ni. symmetry. apply I; auto.
    + exfalso. apply NE. congruence.
Qed.

(** One constant for every test set, neighbourhood and noise. *)
Lemma robust_coercive gamma kv K cur train N nu : lk_ok K (feature_count train) cur [] -> 0 < nu ->
  exists c, 0 < c /\ forall m M n q x, robust m nu train N M n -> (x < M)%nat -> (forall i, (i < n)%nat -> (q x i < N)%nat) ->
    (forall i j, (i < n)%nat -> (j < n)%nat -> q x i = q x j -> i = j) ->
    coercive n (nbr_matrix (lk_cov gamma kv K (feature_count train) cur []) m train q x) c.
Proof.
  intros OK NU. set (k := lk_cov gamma kv K (feature_count train) cur []).
  assert (DD : distinct_rows train N (fun i => i) \/ ~ distinct_rows train N (fun i => i)) by apply Classical_Prop.classic.
  assert (PS : forall n q, psd n (fun i j => kcov k train train (q i) (q j))).
  { intros n q. apply (lk_cov_psd gamma kv K (feature_count train) cur [] (fun i f => feature train (q i) f) n OK). }
  destruct DD as [D|ND].
  - destruct (pd_coercive N (fun i j => kcov k train train i j)) as (c & C0 & CO).
    + intros i j Hi Hj. apply lk_cov_sym.
    + apply (lk_cov_pd gamma kv K (feature_count train) cur [] (fun i f => feature train i f) N OK). exact D.
    + exists (Rmin c nu). split; [apply Rmin_glb_lt; auto|]. intros m M n q x RB Hx B I v.
      assert (V0 : 0 <= rsum n (fun i => v i ^ 2)) by (apply rsum_nonneg; intros; apply pow2_ge_0).
      destruct RB as [NL|[NL _]].
      * apply Rle_trans with (nu * rsum n (fun i => v i ^ 2)); [apply Rmult_le_compat_r; [exact V0|apply Rmin_r]|].
        apply (coercive_diag n _ (noise_at m None x) nu (PS n (q x))). intros i Hi. apply NL; auto.
      * apply Rle_trans with (c * rsum n (fun i => v i ^ 2)); [apply Rmult_le_compat_r; [exact V0|apply Rmin_l]|].
        apply (coercive_diag0 n _ (noise_at m None x) c); [|intros i Hi; apply NL; auto].
        apply (coercive_sub N n (fun i j => kcov k train train i j) c (q x)); auto.
  - exists nu. split; [exact NU|]. intros m M n q x RB Hx B I v. destruct RB as [NL|[_ D]]; [|contradiction].
    apply (coercive_diag n _ (noise_at m None x) nu (PS n (q x))). intros i Hi. apply NL; auto.
Qed.

Lemma robust_sound m nu train N M n : 0 < nu -> robust m nu train N M n -> sound_noise m train N M n.
Proof.
  intros NU [H|[H D]]; [left|right; split; [|exact D]]; intros x i Hx Hi; specialize (H x i Hx Hi); lra.
Qed.

Section Far.
Variables (gamma : R -> R) (kv : R -> R -> R).
Variable ls : lsolver.
Hypothesis EX : exact_solver ls.
Variable knn : dict nnval -> list point -> point -> nat -> list (nat * R).
Variable hnsw : nnval -> list point -> point -> nat -> list (nat * R).
Variable dist : dict nnval -> point -> point -> R.
Hypothesis Hsk : sklearn_ok knn dist.

(** Bounds in terms of the coercivity constant [c]. *)
Lemma far_core K cur m test train x n (q : nat -> nat -> nat) N L D c Y (y : nat -> R) wv :
  lk_ok K (feature_count train) cur [] -> 0 < c -> 0 < D -> 0 < L ->
  (forall f, (f < feature_count train)%nat -> scale_of (lk_def K) cur [] f <= L) ->
  let k := lk_cov gamma kv K (feature_count train) cur [] in
  (forall i, (i < n)%nat -> (q x i < N)%nat) -> far_from test train N x D ->
  coercive n (nbr_matrix k m train q x) c -> (forall j, (j < n)%nat -> Rabs (y j) <= Y) ->
  solves n (nbr_matrix k m train q x) wv (fun j => kcov k test train x (q x j)) ->
  0 <= dot n wv (fun j => kcov k test train x (q x j)) <= 36 * L ^ 2 * INR n / (D ^ 2 * c) /\
  Rabs (dot n wv y) <= 6 * L * INR n * Y / (D * c).
Proof.
  intros OK C0 D0 L0 B k QB FAR CO YB SO.
  assert (D20 : 0 < D ^ 2) by (apply pow_lt; exact D0).
  assert (KB : rsum n (fun j => kcov k test train x (q x j) ^ 2) <= INR n * ((6 * L / D) ^ 2)).
  { rewrite <- rsum_const. apply rsum_le. intros j Hj.
    destruct (lk_decay gamma kv K cur [] test train x (q x j) L OK L0 B) as [P Q]. fold k in P, Q.
    pose proof (FAR (q x j) (QB j Hj)) as F. set (e := euclid (feature_count train) (feature test x) (feature train (q x j))) in *.
    apply pow_incr. split; [exact P|]. apply Rmult_le_reg_r with D; [exact D0|].
    replace (6 * L / D * D) with (6 * L) by (field; lra). eapply Rle_trans; [|exact Q]. apply Rmult_le_compat_l; auto. }
  destruct (coercive_weights n _ _ wv c C0 CO SO) as (W1 & W2 & W3).
  assert (W0 : 0 <= rsum n (fun i => wv i ^ 2)) by (apply rsum_nonneg; intros; apply pow2_ge_0).
  assert (N0 : 0 <= INR n) by apply pos_INR.
  split; [split|].
  - apply Rle_trans with (c * rsum n (fun i => wv i ^ 2)); [apply Rmult_le_pos; lra|exact W1].
  - apply Rmult_le_reg_l with c; [exact C0|]. eapply Rle_trans; [exact W3|]. eapply Rle_trans; [exact KB|]. right. field. lra.
  - destruct (Nat.eq_dec n 0) as [->|NZ].
    + unfold dot. cbn [rsum INR]. rewrite Rabs_R0. right. field. lra.
    + assert (N1 : 0 < INR n) by (apply lt_0_INR; lia).
      assert (Y0 : 0 <= Y) by (apply Rle_trans with (Rabs (y O)); [apply Rabs_pos|apply YB; lia]).
      set (b := 6 * L * INR n * Y / (D * c)).
      assert (b0 : 0 <= b).
      { unfold b, Rdiv. apply Rmult_le_pos; [|left; apply Rinv_0_lt_compat, Rmult_lt_0_compat; lra].
        repeat apply Rmult_le_pos; lra. }
      apply Rsqr_incr_0_var; [|exact b0]. rewrite <- Rsqr_abs. unfold Rsqr.
      pose proof (cauchy_schwarz n wv y) as CS. fold (dot n wv y) in CS. cbn [pow] in CS. rewrite Rmult_1_r in CS.
      apply Rle_trans with (1 := CS).
      assert (YS : rsum n (fun f => y f * (y f * 1)) <= INR n * Y ^ 2).
      { rewrite <- rsum_const. apply rsum_le. intros j Hj. pose proof (YB j Hj) as Yj. apply Rle_trans with (Rabs (y j) ^ 2).
        - rewrite pow2_abs. right. ring.
        - apply pow_incr. split; [apply Rabs_pos|exact Yj]. }
      assert (WB : rsum n (fun f => wv f * (wv f * 1)) <= INR n * (6 * L / D) ^ 2 / c ^ 2).
      { apply Rmult_le_reg_l with (c ^ 2); [apply pow_lt; exact C0|].
        replace (c ^ 2 * (INR n * (6 * L / D) ^ 2 / c ^ 2)) with (INR n * (6 * L / D) ^ 2) by (field; lra).
        eapply Rle_trans; [|exact KB]. exact W2. }
      replace (b * b) with (INR n * (6 * L / D) ^ 2 / c ^ 2 * (INR n * Y ^ 2)) by (unfold b; field; lra).
      apply Rmult_le_compat; [exact W0| |exact WB|exact YS].
      apply rsum_nonneg. intros j _. replace (y j * (y j * 1)) with (y j ^ 2) by ring. apply pow2_ge_0.
Qed.

Lemma far_any c K cur train N n nu L : dataset train N -> lk_ok K (feature_count train) cur [] -> (0 < n <= N)%nat -> 0 < nu -> 0 < L -> 0 < c ->
  (forall f, (f < feature_count train)%nat -> scale_of (lk_def K) cur [] f <= L) ->
  forall en method kw w g test targets M ex Y,
  lower method = "exact"%string -> euclidean_kw kw -> nn_init en (rows_of train) n method kw = Ok w -> (0 < M)%nat ->
  dataset test M -> ndim test = ndim train -> feature_count test = feature_count train -> shape targets = N :: ex -> no_coincidence ex [n] ->
  (forall a e, (a < N)%nat -> inb ex e -> Rabs (at_ targets (a :: e)) <= Y) ->
  shape (gp_Kout g) = [] -> at_ (gp_Kout g) [] = 1 -> 0 <= gp_var_scale g -> noise_fits (gp_noise g) M n -> robust (gp_noise g) nu train N M n ->
  (forall q x, (x < M)%nat -> (forall i, (i < n)%nat -> (q x i < N)%nat) ->
    (forall i j, (i < n)%nat -> (j < n)%nat -> q x i = q x j -> i = j) ->
    coercive n (nbr_matrix (lk_cov gamma kv K (feature_count train) cur []) (gp_noise g) train q x) c) ->
  exists mean var,
    regress_any ls knn hnsw (Univariate (lib_model gamma kv g K cur)) test train w targets = Ok (mean, var) /\
    forall x D, (x < M)%nat -> 0 < D -> far_from test train N x D ->
      gp_var_scale g * (1 - 36 * L ^ 2 * INR n / (D ^ 2 * c)) <= at_ var [x] <= gp_var_scale g /\
      forall e, inb ex e -> Rabs (at_ mean (x :: e)) <= 6 * L * INR n * Y / (D * c).
Proof.
  intros D2 OK Hn NU L0 C0 B en method kw w g test targets M ex Y Hm He Hi M0 D1 ND FC HT NC YB SK K1 SC NF RB CO.
  destruct (regress_any_nbr gamma kv ls EX knn hnsw dist Hsk en method kw w g K cur [] test train targets N M n ex)
    as (mean & var & E & _ & _ & _ & V); auto; [apply (robust_sound _ nu); auto|].
  exists mean, var. split; [exact E|]. intros x D Hx D0 FAR.
  destruct (V x Hx) as (NR & Mx & (wv & SO & ->) & [_ VU]).
  set (q := nbr knn hnsw w test) in *. set (k := lk_cov gamma kv K (feature_count train) cur []) in *.
  assert (COx : coercive n (nbr_matrix k (gp_noise g) train q x) c) by (apply CO; auto; apply NR).
  split.
  - destruct (far_core K cur (gp_noise g) test train x n q N L D c 0 (fun _ => 0) wv OK C0 D0 L0 B (proj1 NR) FAR COx) as [[P0 P1] _];
      [intros; rewrite Rabs_R0; lra|exact SO|]. fold k in P0, P1.
    split.
    + apply Rmult_le_compat_l; [exact SC|]. lra.
    + apply Rle_trans with (gp_var_scale g * 1); [apply Rmult_le_compat_l; [exact SC|lra]|lra].
  - intros e Hie. destruct (Mx e Hie) as (u & U & ->).
    apply (far_core K cur (gp_noise g) test train x n q N L D c Y (fun j => at_ targets (q x j :: e)) u OK C0 D0 L0 B (proj1 NR) FAR COx); [|exact U].
    intros j Hj. apply YB; [apply NR; exact Hj|exact Hie].
Qed.

Lemma noise_coercive K cur m nu train M n q x : lk_ok K (feature_count train) cur [] -> noise_at_least m nu M n -> (x < M)%nat ->
  coercive n (nbr_matrix (lk_cov gamma kv K (feature_count train) cur []) m train q x) nu.
Proof.
  intros OK NL Hx. apply (coercive_diag n _ (noise_at m None x) nu); [|intros i Hi; apply NL; auto].
  apply (lk_cov_psd gamma kv K (feature_count train) cur [] (fun i f => feature train (q x i) f) n OK).
Qed.

(** Explicit rate under noise. *)
Lemma far_rate en method kw w g K cur test train targets N M n ex nu L Y :
  lower method = "exact"%string -> euclidean_kw kw -> nn_init en (rows_of train) n method kw = Ok w -> (0 < n <= N /\ 0 < M)%nat ->
  dataset test M -> dataset train N -> ndim test = ndim train -> feature_count test = feature_count train ->
  lk_ok K (feature_count train) cur [] -> shape targets = N :: ex -> no_coincidence ex [n] ->
  shape (gp_Kout g) = [] -> at_ (gp_Kout g) [] = 1 -> 0 <= gp_var_scale g -> noise_fits (gp_noise g) M n ->
  0 < nu -> noise_at_least (gp_noise g) nu M n ->
  (forall f, (f < feature_count train)%nat -> scale_of (lk_def K) cur [] f <= L) ->
  (forall a e, (a < N)%nat -> inb ex e -> Rabs (at_ targets (a :: e)) <= Y) ->
  exists mean var,
    regress_any ls knn hnsw (Univariate (lib_model gamma kv g K cur)) test train w targets = Ok (mean, var) /\
    forall x D, (x < M)%nat -> 0 < D -> far_from test train N x D ->
      gp_var_scale g * (1 - 36 * L ^ 2 * INR n / (D ^ 2 * nu)) <= at_ var [x] <= gp_var_scale g /\
      forall e, inb ex e -> Rabs (at_ mean (x :: e)) <= 6 * L * INR n * Y / (D * nu).
Proof.
  intros Hm He Hi Hn D1 D2 ND FC OK HT NC SK K1 SC NF NU NL B YB.
  assert (L0 : 0 < L).
  { destruct OK as (_ & HF & POS & _). pose proof (POS O HF). pose proof (B O HF). lra. }
  apply (far_any nu K cur train N n nu L D2 OK (proj1 Hn) NU L0 NU B en method kw w g test targets M ex Y); auto; try lia.
  - left. exact NL.
  - intros q x Hx _ _. apply (noise_coercive K cur _ nu train M); auto.
Qed.

(** Reversion to the prior, with one distance for every test set, noise, and responses bounded by [Y]. *)
Lemma far_reverts K cur train N n nu sc Y eps :
  dataset train N -> lk_ok K (feature_count train) cur [] -> (0 < n <= N)%nat -> 0 < nu -> 0 <= sc -> 0 < eps ->
  exists D, 0 < D /\ forall en method kw w g test targets M ex,
  lower method = "exact"%string -> euclidean_kw kw -> nn_init en (rows_of train) n method kw = Ok w -> (0 < M)%nat ->
  dataset test M -> ndim test = ndim train -> feature_count test = feature_count train -> shape targets = N :: ex -> no_coincidence ex [n] ->
  (forall a e, (a < N)%nat -> inb ex e -> Rabs (at_ targets (a :: e)) <= Y) ->
  shape (gp_Kout g) = [] -> at_ (gp_Kout g) [] = 1 -> gp_var_scale g = sc -> noise_fits (gp_noise g) M n -> robust (gp_noise g) nu train N M n ->
  exists mean var,
    regress_any ls knn hnsw (Univariate (lib_model gamma kv g K cur)) test train w targets = Ok (mean, var) /\
    forall x, (x < M)%nat -> far_from test train N x D ->
      sc - eps <= at_ var [x] <= sc /\ forall e, inb ex e -> Rabs (at_ mean (x :: e)) <= eps.
Proof.
  intros D2 OK Hn NU SC EPS.
  destruct (robust_coercive gamma kv K cur train N nu OK NU) as (c & C0 & CO).
  destruct (scale_bound (lk_def K) (feature_count train) cur []) as (L & L0 & B); [apply OK|].
  set (P := 36 * L ^ 2 * INR n * sc / c). set (Q := 6 * L * INR n * Rabs Y / c).
  assert (N0 : 0 <= INR n) by apply pos_INR. assert (Y0 : 0 <= Rabs Y) by apply Rabs_pos. assert (I0 : 0 < / c) by (apply Rinv_0_lt_compat; exact C0).
  assert (L20 : 0 < L ^ 2) by (apply pow_lt; exact L0).
  assert (P0 : 0 <= P) by (unfold P, Rdiv; repeat apply Rmult_le_pos; lra).
  assert (Q0 : 0 <= Q) by (unfold Q, Rdiv; repeat apply Rmult_le_pos; lra).
  set (D := 1 + P / eps + Q / eps).
  assert (PE : 0 <= P / eps) by (apply Rmult_le_pos; [exact P0|left; apply Rinv_0_lt_compat; exact EPS]).
  assert (QE : 0 <= Q / eps) by (apply Rmult_le_pos; [exact Q0|left; apply Rinv_0_lt_compat; exact EPS]).
  assert (D1' : 1 <= D) by (unfold D; lra).
  assert (PD : P / D ^ 2 <= eps).
  { apply Rmult_le_reg_r with (D ^ 2); [apply pow_lt; lra|]. replace (P / D ^ 2 * D ^ 2) with P by (field; lra).
    replace P with (eps * (P / eps)) by (field; lra). apply Rmult_le_compat_l; [lra|].
    apply Rle_trans with D; [unfold D; lra|]. cbn [pow]. nra. }
  assert (QD : Q / D <= eps).
  { apply Rmult_le_reg_r with D; [lra|]. replace (Q / D * D) with Q by (field; lra).
    replace Q with (eps * (Q / eps)) by (field; lra). apply Rmult_le_compat_l; [lra|]. unfold D. lra. }
  exists D. split; [lra|]. intros en method kw w g test targets M ex Hm He Hi M0 D1 ND FC HT NC YB SK K1 GS NF RB.
  destruct (far_any c K cur train N n nu L D2 OK Hn NU L0 C0 B en method kw w g test targets M ex (Rabs Y)) as (mean & var & E & V); auto.
  - intros a e Ha Hie. apply Rle_trans with Y; [auto|apply Rle_abs].
  - lra.
  - intros q x Hx QB QI. apply (CO (gp_noise g) M n q x RB Hx QB QI).
  - exists mean, var. split; [exact E|]. intros x Hx FAR. destruct (V x D Hx ltac:(lra) FAR) as [[V1 V2] VM]. rewrite GS in V1, V2. split; [split|].
    + eapply Rle_trans; [|exact V1].
      replace (sc * (1 - 36 * L ^ 2 * INR n / (D ^ 2 * c))) with (sc - P / D ^ 2) by (unfold P; field; lra). lra.
    + exact V2.
    + intros e Hie. eapply Rle_trans; [apply VM; exact Hie|].
      replace (6 * L * INR n * Rabs Y / (D * c)) with (Q / D) by (unfold Q; field; lra). exact QD.
Qed.

(** ** Responses *)
Lemma superposition en method kw w g K cur test train targets targets' N M n ex a b :
  lower method = "exact"%string -> euclidean_kw kw -> nn_init en (rows_of train) n method kw = Ok w -> (0 < n <= N /\ 0 < M)%nat ->
  dataset test M -> dataset train N -> ndim test = ndim train -> feature_count test = feature_count train ->
  lk_ok K (feature_count train) cur [] -> shape targets = N :: ex -> shape targets' = N :: ex -> no_coincidence ex [n] ->
  shape (gp_Kout g) = [] -> at_ (gp_Kout g) [] = 1 -> 0 <= gp_var_scale g -> noise_fits (gp_noise g) M n -> sound_noise (gp_noise g) train N M n ->
  let both := mkNd (N :: ex) (fun idx => a * at_ targets idx + b * at_ targets' idx) in
  exists mean mean' mean'' var var' var'',
    regress_any ls knn hnsw (Univariate (lib_model gamma kv g K cur)) test train w targets = Ok (mean, var) /\
    regress_any ls knn hnsw (Univariate (lib_model gamma kv g K cur)) test train w targets' = Ok (mean', var') /\
    regress_any ls knn hnsw (Univariate (lib_model gamma kv g K cur)) test train w both = Ok (mean'', var'') /\
    forall x, (x < M)%nat -> at_ var' [x] = at_ var [x] /\ at_ var'' [x] = at_ var [x] /\
      forall e, inb ex e -> at_ mean'' (x :: e) = a * at_ mean (x :: e) + b * at_ mean' (x :: e).
Proof.
  intros Hm He Hi Hn D1 D2 ND FC OK HT HT' NC SK K1 SC NF SN both.
  destruct (regress_any_nbr gamma kv ls EX knn hnsw dist Hsk en method kw w g K cur [] test train targets N M n ex)
    as (mean & var & E & _ & _ & NS & V); auto.
  destruct (regress_any_nbr gamma kv ls EX knn hnsw dist Hsk en method kw w g K cur [] test train targets' N M n ex)
    as (mean' & var' & E' & _ & _ & _ & V'); auto.
  destruct (regress_any_nbr gamma kv ls EX knn hnsw dist Hsk en method kw w g K cur [] test train both N M n ex)
    as (mean'' & var'' & E'' & _ & _ & _ & V''); auto.
  exists mean, mean', mean'', var, var', var''. split; [exact E|]. split; [exact E'|]. split; [exact E''|]. intros x Hx.
  destruct (V x Hx) as (NR & Mx & (u & U & ->) & _). destruct (V' x Hx) as (_ & Mx' & (u' & U' & ->) & _). destruct (V'' x Hx) as (_ & Mx'' & (u'' & U'' & ->) & _).
  set (k := fun j => kcov (lk_cov gamma kv K (feature_count train) cur []) test train x (nbr knn hnsw w test x j)) in *.
  set (A := nbr_matrix (lk_cov gamma kv K (feature_count train) cur []) (gp_noise g) train (nbr knn hnsw w test) x) in *.
  assert (Q : forall v v', solves n A v k -> solves n A v' k -> forall j, (j < n)%nat -> v j = v' j) by (intros v v'; apply (solves_unique n A v v' k (NS x Hx))).
  assert (DE : forall v v' y, (forall j, (j < n)%nat -> v j = v' j) -> dot n v y = dot n v' y).
  { intros v v' y H. unfold dot. apply rsum_ext. intros j Hj. rewrite H by auto. reflexivity. }
  split; [|split].
  - rewrite (DE u' u k); [reflexivity|]. apply Q; auto.
  - rewrite (DE u'' u k); [reflexivity|]. apply Q; auto.
  - intros e Hie. destruct (Mx e Hie) as (v & W & ->). destruct (Mx' e Hie) as (v' & W' & ->). destruct (Mx'' e Hie) as (v'' & W'' & ->).
    rewrite (DE v v''), (DE v' v'') by (apply Q; auto). unfold dot. rewrite <- !rsum_scal, <- rsum_plus. apply rsum_ext. intros j Hj.
    unfold both. cbn [at_]. ring.
Qed.

(** Bounded sensitivity. *)
Lemma sensitive_core n A k w c y y' d : 0 < c -> coercive n A c -> solves n A w k -> dot n w k <= 1 ->
  (forall j, (j < n)%nat -> Rabs (y' j - y j) <= d) -> c * (dot n w y' - dot n w y) ^ 2 <= INR n * d ^ 2.
Proof.
  intros C0 CO SO K1 YB. destruct (coercive_weights n A k w c C0 CO SO) as (W1 & _).
  replace (dot n w y' - dot n w y) with (rsum n (fun j => w j * (y' j - y j))) by (unfold dot; rewrite <- rsum_minus; apply rsum_ext; intros; ring).
  pose proof (cauchy_schwarz n w (fun j => y' j - y j)) as CS.
  assert (YS : rsum n (fun j => (y' j - y j) ^ 2) <= INR n * d ^ 2).
  { rewrite <- rsum_const. apply rsum_le. intros j Hj. rewrite <- pow2_abs. apply pow_incr. split; [apply Rabs_pos|apply YB; exact Hj]. }
  assert (Y0 : 0 <= rsum n (fun j => (y' j - y j) ^ 2)) by (apply rsum_nonneg; intros; apply pow2_ge_0).
  apply Rle_trans with (c * (rsum n (fun f => w f ^ 2) * rsum n (fun f => (y' f - y f) ^ 2))); [apply Rmult_le_compat_l; [lra|exact CS]|].
  rewrite <- Rmult_assoc. apply Rle_trans with (1 * rsum n (fun f => (y' f - y f) ^ 2)); [apply Rmult_le_compat_r; lra|lra].
Qed.

Lemma sensitive_any c en method kw w g K cur test train targets targets' N M n ex :
  lower method = "exact"%string -> euclidean_kw kw -> nn_init en (rows_of train) n method kw = Ok w -> (0 < n <= N /\ 0 < M)%nat ->
  dataset test M -> dataset train N -> ndim test = ndim train -> feature_count test = feature_count train ->
  lk_ok K (feature_count train) cur [] -> shape targets = N :: ex -> shape targets' = N :: ex -> no_coincidence ex [n] ->
  shape (gp_Kout g) = [] -> at_ (gp_Kout g) [] = 1 -> 0 <= gp_var_scale g -> noise_fits (gp_noise g) M n -> sound_noise (gp_noise g) train N M n ->
  0 < c ->
  (forall q x, (x < M)%nat -> (forall i, (i < n)%nat -> (q x i < N)%nat) ->
    (forall i j, (i < n)%nat -> (j < n)%nat -> q x i = q x j -> i = j) ->
    coercive n (nbr_matrix (lk_cov gamma kv K (feature_count train) cur []) (gp_noise g) train q x) c) ->
  exists mean mean' var var',
    regress_any ls knn hnsw (Univariate (lib_model gamma kv g K cur)) test train w targets = Ok (mean, var) /\
    regress_any ls knn hnsw (Univariate (lib_model gamma kv g K cur)) test train w targets' = Ok (mean', var') /\
    forall x e d, (x < M)%nat -> inb ex e ->
      (forall a, (a < N)%nat -> Rabs (at_ targets' (a :: e) - at_ targets (a :: e)) <= d) ->
      c * (at_ mean' (x :: e) - at_ mean (x :: e)) ^ 2 <= INR n * d ^ 2.
Proof.
  intros Hm He Hi Hn D1 D2 ND FC OK HT HT' NC SK K1 SC NF SN C0 CO.
  destruct (regress_any_nbr gamma kv ls EX knn hnsw dist Hsk en method kw w g K cur [] test train targets N M n ex)
    as (mean & var & E & _ & _ & NS & V); auto.
  destruct (regress_any_nbr gamma kv ls EX knn hnsw dist Hsk en method kw w g K cur [] test train targets' N M n ex)
    as (mean' & var' & E' & _ & _ & _ & V'); auto.
  exists mean, mean', var, var'. split; [exact E|]. split; [exact E'|]. intros x e d Hx Hie DB.
  destruct (V x Hx) as (NR & Mx & _). destruct (V' x Hx) as (_ & Mx' & _).
  destruct (Mx e Hie) as (v & W & ->). destruct (Mx' e Hie) as (v' & W' & ->).
  set (q := nbr knn hnsw w test) in *. set (k := lk_cov gamma kv K (feature_count train) cur []) in *.
  assert (COx : coercive n (nbr_matrix k (gp_noise g) train q x) c) by (apply CO; auto; apply NR).
  assert (Q : forall j, (j < n)%nat -> v' j = v j) by (exact (solves_unique n _ v' v _ (NS x Hx) W' W)).
  replace (dot n v' (fun j => at_ targets' (q x j :: e))) with (dot n v (fun j => at_ targets' (q x j :: e)))
    by (unfold dot; apply rsum_ext; intros j Hj; rewrite Q by auto; reflexivity).
  apply (sensitive_core n _ _ v c (fun j => at_ targets (q x j :: e)) (fun j => at_ targets' (q x j :: e)) d C0 COx W).
  - assert (X : 0 <= 1 - dot n v (fun j => kcov k test train x (q x j)) <= 1); [|lra].
    apply (kriging_bounds gamma kv K (feature_count train) cur [] n (gp_noise g) train test q x x v OK); [|exact W].
    intros i Hi0. destruct SN as [P|[P _]]; specialize (P x i Hx Hi0); lra.
  - intros j Hj. apply DB. apply NR. exact Hj.
Qed.
End Far.
