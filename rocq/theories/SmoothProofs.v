(** Proofs about the dependence of predictions on the test features. *)
From Coq Require Import Lia Lra.
From Verif Require Import Base BaseFacts NdModel NdFacts RSum HyperModel NamedModel NamedSpec LinAlgModel LinAlgSpec LinAlgFacts Gauss
  GPModel NoiseModel MuyGPSModel GPSpec GPTheorems WellPosedProofs TensorModel TensorSpec TensorProofs KernelModel KernelSpec KernelProofs
  NeighborsModel NeighborsSpec NeighborsProofs FlowModel FlowSpec FlowProofs PointwiseSpec LibSpec LibProofs
  MultiModel DriverModel WorkModel WorkSpec WorkProofs WorkLemmas BestSpec BestProofs SimProofs LocalSpec LocalProofs FarSpec FarProofs SmoothSpec.
Local Open Scope R_scope.

(** ** The kernels are Lipschitz functions of the distance *)
Lemma lip_from_small f C : (forall a, 0 <= a -> 0 < f a <= 1) -> (forall a b, 0 <= a -> a < b -> f b < f a) -> 1 <= C ->
  (forall a h, 0 <= a -> 0 < h <= 1 -> f a - f (a + h) <= C * h) -> forall a b, 0 <= a -> 0 <= b -> Rabs (f a - f b) <= C * Rabs (a - b).
Proof.
  intros B DEC C1 SM.
  assert (H : forall a b, 0 <= a -> a <= b -> Rabs (f a - f b) <= C * Rabs (a - b)).
  { intros a b A0 [AB|<-].
    - pose proof (DEC a b A0 AB). rewrite (Rabs_pos_eq (f a - f b)) by lra. rewrite (Rabs_left (a - b)) by lra.
      destruct (Rle_lt_dec (b - a) 1) as [S1|S1].
      + pose proof (SM a (b - a) A0 ltac:(lra)) as X. replace (a + (b - a)) with b in X by ring. lra.
      + pose proof (B a A0). pose proof (B b ltac:(lra)). nra.
    - replace (f a - f a) with 0 by ring. replace (a - a) with 0 by ring. rewrite Rabs_R0. lra. }
  intros a b A0 B0. destruct (Rle_lt_dec a b) as [L|L]; [apply H; auto|].
  rewrite (Rabs_minus_sym (f a)), (Rabs_minus_sym a). apply H; lra.
Qed.
Lemma exp_neg_split a h : exp (- (a + h)) = exp (- a) * exp (- h).
Proof. rewrite <- exp_plus. f_equal. ring. Qed.
Lemma exp_neg_lower h : 1 - h <= exp (- h).
Proof. pose proof (exp_ineq1_le (- h)). lra. Qed.
Lemma exp_neg_times a p q : 0 <= p -> p <= q * exp a -> exp (- a) * p <= q.
Proof.
  intros P H. rewrite exp_Ropp. apply Rmult_le_reg_l with (exp a); [apply exp_pos|].
  replace (exp a * (/ exp a * p)) with p by (field; apply Rgt_not_eq, exp_pos). lra.
Qed.

Lemma half_lip a b : 0 <= a -> 0 <= b -> Rabs (matern_half a - matern_half b) <= 1 * Rabs (a - b).
Proof.
  destruct matern_half_corr as (_ & B & _ & D). apply (lip_from_small matern_half 1 B D); [lra|].
  intros x h X0 H. unfold matern_half. rewrite exp_neg_split. pose proof (exp_neg_lower h). pose proof (exp_pos (- x)).
  pose proof (exp_neg_le1 x X0). nra.
Qed.
Definition three (t : R) : R := (1 + t) * exp (- t).
Definition five (t : R) : R := (1 + t + t ^ 2 / 3) * exp (- t).
Lemma three_bounds : (forall a, 0 <= a -> 0 < three a <= 1) /\ (forall a b, 0 <= a -> a < b -> three b < three a).
Proof.
  assert (D : forall a b, 0 <= a -> a < b -> three b < three a) by (intros; apply lin_exp_dec; auto).
  split; [|exact D]. intros a A0. unfold three at 1. pose proof (exp_pos (- a)). split; [apply Rmult_lt_0_compat; lra|].
  destruct A0 as [A0|<-]; [left; replace 1 with (three 0) by (unfold three; rewrite Ropp_0, exp_0; ring); apply D; lra|].
  unfold three. rewrite Ropp_0, exp_0. lra.
Qed.
Lemma five_bounds : (forall a, 0 <= a -> 0 < five a <= 1) /\ (forall a b, 0 <= a -> a < b -> five b < five a).
Proof.
  assert (D : forall a b, 0 <= a -> a < b -> five b < five a) by (intros; apply quad_exp_dec; auto).
  split; [|exact D]. intros a A0. unfold five at 1. pose proof (exp_pos (- a)). pose proof (pow2_ge_0 a). split; [apply Rmult_lt_0_compat; lra|].
  destruct A0 as [A0|<-]; [left; replace 1 with (five 0) by (unfold five; rewrite Ropp_0, exp_0; field); apply D; lra|].
  unfold five. rewrite Ropp_0, exp_0. cbn [pow]. lra.
Qed.
Lemma three_lip a b : 0 <= a -> 0 <= b -> Rabs (three a - three b) <= 1 * Rabs (a - b).
Proof.
  destruct three_bounds as [B D]. apply (lip_from_small three 1 B D); [lra|]. intros x h X0 H. unfold three.
  rewrite exp_neg_split. pose proof (exp_neg_lower h) as E. pose proof (exp_pos (- x)) as P.
  apply Rle_trans with (exp (- x) * (h * (x + h))).
  - replace ((1 + x) * exp (- x) - (1 + (x + h)) * (exp (- x) * exp (- h))) with (exp (- x) * (1 + x - (1 + (x + h)) * exp (- h))) by ring.
    apply Rmult_le_compat_l; [lra|]. assert ((1 + (x + h)) * (1 - h) <= (1 + (x + h)) * exp (- h)) by (apply Rmult_le_compat_l; lra). nra.
  - apply exp_neg_times; [apply Rmult_le_pos; lra|]. pose proof (exp_ineq1_le x). nra.
Qed.
Lemma five_lip a b : 0 <= a -> 0 <= b -> Rabs (five a - five b) <= 3 * Rabs (a - b).
Proof.
  destruct five_bounds as [B D]. apply (lip_from_small five 3 B D); [lra|]. intros x h X0 H. unfold five.
  rewrite exp_neg_split. pose proof (exp_neg_lower h) as E. pose proof (exp_pos (- x)) as P.
  set (Q := 1 + (x + h) + (x + h) ^ 2 / 3). assert (Q0 : 0 <= Q) by (unfold Q; pose proof (pow2_ge_0 (x + h)); lra).
  apply Rle_trans with (exp (- x) * (h * (7 / 3 + 5 / 3 * x + x ^ 2 / 3))).
  - replace ((1 + x + x ^ 2 / 3) * exp (- x) - Q * (exp (- x) * exp (- h))) with (exp (- x) * (1 + x + x ^ 2 / 3 - Q * exp (- h))) by ring.
    apply Rmult_le_compat_l; [lra|]. assert (Q * (1 - h) <= Q * exp (- h)) by (apply Rmult_le_compat_l; lra).
    apply Rle_trans with (1 + x + x ^ 2 / 3 - Q * (1 - h)); [lra|].
    replace (1 + x + x ^ 2 / 3 - Q * (1 - h)) with (h * (Q - 1 - 2 / 3 * x - h / 3)) by (unfold Q; field).
    apply Rmult_le_compat_l; [lra|]. unfold Q. cbn [pow]. nra.
  - apply exp_neg_times; [apply Rmult_le_pos; [lra|]; pose proof (pow2_ge_0 x); lra|].
    assert (EQ : 1 + x + x ^ 2 / 3 <= exp x).
    { destruct X0 as [X0|<-]; [left; apply exp_gt_quad; exact X0|]. rewrite exp_0. cbn [pow]. lra. }
    assert (7 / 3 + 5 / 3 * x + x ^ 2 / 3 <= 3 * exp x) by (pose proof (pow2_ge_0 x); lra).
    replace (3 * h * exp x) with (h * (3 * exp x)) by ring. apply Rmult_le_compat_l; lra.
Qed.
Lemma gaussian_lip a b : 0 <= a -> 0 <= b -> Rabs (gaussian a - gaussian b) <= 2 * Rabs (a - b).
Proof.
  destruct gaussian_corr as (_ & B & _ & D). apply (lip_from_small gaussian 2 B D); [lra|]. intros x h X0 H. unfold gaussian.
  replace (- x ^ 2 / 2) with (- (x ^ 2 / 2)) by field. replace (- (x + h) ^ 2 / 2) with (- (x ^ 2 / 2 + h * (2 * x + h) / 2)) by field.
  rewrite exp_neg_split. pose proof (exp_neg_lower (h * (2 * x + h) / 2)) as E. pose proof (exp_pos (- (x ^ 2 / 2))) as P.
  apply Rle_trans with (exp (- (x ^ 2 / 2)) * (h * (2 * x + h) / 2)).
  - apply Rle_trans with (exp (- (x ^ 2 / 2)) * (1 - exp (- (h * (2 * x + h) / 2)))); [right; ring|]. apply Rmult_le_compat_l; lra.
  - apply exp_neg_times; [apply Rmult_le_pos; [apply Rmult_le_pos; lra|lra]|]. pose proof (exp_ineq1_le (x ^ 2 / 2)) as X.
    replace (h * (2 * x + h) / 2) with (h * (x + h / 2)) by field. replace (2 * h * exp (x ^ 2 / 2)) with (h * (2 * exp (x ^ 2 / 2))) by ring.
    apply Rmult_le_compat_l; [lra|]. pose proof (pow2_ge_0 (x - 1)). cbn [pow] in *. nra.
Qed.

Lemma sqrt_le_3 a : a <= 9 -> sqrt a <= 3.
Proof. intros H. apply Rle_trans with (sqrt (3 ^ 2)); [apply sqrt_le_1_alt; lra|right; apply sqrt_pow2; lra]. Qed.
Lemma matern_lip gamma kv f nu a b : f <> General -> 0 <= a -> 0 <= b ->
  Rabs (matern_value gamma kv f nu a - matern_value gamma kv f nu b) <= 9 * Rabs (a - b).
Proof.
  intros N A0 B0. pose proof (Rabs_pos (a - b)) as AB.
  assert (SC : forall s c, 1 <= s -> s <= 3 -> c <= 3 -> 0 <= c -> c * Rabs (s * a - s * b) <= 9 * Rabs (a - b)).
  { intros s c S1 S3 C3 C0. replace (s * a - s * b) with (s * (a - b)) by ring. rewrite Rabs_mult, (Rabs_pos_eq s) by lra.
    rewrite <- Rmult_assoc. apply Rmult_le_compat_r; [exact AB|]. apply Rle_trans with (3 * 3); [apply Rmult_le_compat; lra|lra]. }
  assert (S3 : 1 <= sqrt 3 <= 3) by (split; [apply sqrt_ge_1; lra|apply sqrt_le_3; lra]).
  assert (S5 : 1 <= sqrt 5 <= 3) by (split; [apply sqrt_ge_1; lra|apply sqrt_le_3; lra]).
  destruct f; try (exfalso; apply N; reflexivity); cbn [matern_value].
  - pose proof (half_lip a b A0 B0). lra.
  - change (matern_three_halves a) with (three (sqrt 3 * a)). change (matern_three_halves b) with (three (sqrt 3 * b)).
    eapply Rle_trans; [apply three_lip; apply Rmult_le_pos; lra|]. apply SC; lra.
  - assert (E : forall d, matern_five_halves d = five (sqrt 5 * d)).
    { intros d. unfold matern_five_halves, five. f_equal. rewrite Rpow_mult_distr. rewrite <- (Rsqr_pow2 (sqrt 5)), Rsqr_sqrt by lra. reflexivity. }
    rewrite !E. eapply Rle_trans; [apply five_lip; apply Rmult_le_pos; lra|]. apply SC; lra.
  - pose proof (gaussian_lip a b A0 B0). lra.
Qed.

(** ** ... and of the features *)
Lemma scale_low d F cur kw : positive_scales d F cur kw -> exists l, 0 < l /\ forall f, (f < F)%nat -> l <= scale_of d cur kw f.
Proof.
  intros P. unfold positive_scales in P. induction F as [|F IH]; [exists 1; split; [lra|intros; lia]|].
  destruct IH as (l & L0 & B); [intros f Hf; apply P; lia|]. exists (Rmin l (scale_of d cur kw F)). split; [apply Rmin_glb_lt; [exact L0|apply P; lia]|].
  intros f Hf. destruct (Nat.eq_dec f F) as [->|]; [apply Rmin_r|]. apply Rle_trans with l; [apply Rmin_l|apply B; lia].
Qed.
Definition sdist (F : nat) (l : nat -> R) (v : nat -> R) : R := sqrt (scaled_sqdist F l v (fun _ => 0)).
Lemma sdist_triangle F l u v : sdist F l (fun f => u f + v f) <= sdist F l u + sdist F l v.
Proof.
  unfold sdist, scaled_sqdist. eapply Rle_trans; [|apply norm_triangle]. right. f_equal. apply rsum_ext. intros f Hf. unfold Rdiv. ring.
Qed.
Lemma sdist_le F (l : nat -> R) m x y : 0 < m -> (forall f, (f < F)%nat -> m <= l f) -> sdist F l (fun f => x f - y f) <= euclid F x y / m.
Proof.
  intros M0 B. unfold sdist, euclid. apply Rle_trans with (sqrt (sqdist F x y / m ^ 2)).
  - apply sqrt_le_1_alt. unfold sqdist, scaled_sqdist, Rdiv. rewrite <- rsum_scal_r. apply rsum_le. intros f Hf.
    pose proof (B f Hf). replace (x f - y f - 0) with (x f - y f) by ring. rewrite Rpow_mult_distr.
    apply Rmult_le_compat_l; [apply pow2_ge_0|]. rewrite pow_inv by lra. apply Rinv_le_contravar; [apply pow_lt; exact M0|]. apply pow_incr. lra.
  - right. rewrite sqrt_div_alt by (apply pow_lt; exact M0). rewrite sqrt_pow2 by lra. reflexivity.
Qed.
Lemma sdist_lip F (l : nat -> R) m x y a : 0 < m -> (forall f, (f < F)%nat -> m <= l f) ->
  Rabs (sdist F l (fun f => x f - a f) - sdist F l (fun f => y f - a f)) <= euclid F x y / m.
Proof.
  intros M0 B.
  assert (H : forall x y, sdist F l (fun f => x f - a f) - sdist F l (fun f => y f - a f) <= euclid F x y / m).
  { clear x y. intros x y. pose proof (sdist_triangle F l (fun f => x f - y f) (fun f => y f - a f)) as T. cbn beta in T.
    replace (sdist F l (fun f => x f - y f + (y f - a f))) with (sdist F l (fun f => x f - a f)) in T
      by (unfold sdist; f_equal; apply rsum_ext; intros; f_equal; f_equal; ring).
    pose proof (sdist_le F l m x y M0 B). lra. }
  apply Rabs_le. pose proof (H x y). pose proof (H y x) as H2. replace (euclid F y x) with (euclid F x y) in H2; [lra|].
  unfold euclid, sqdist. f_equal. apply rsum_ext. intros; ring.
Qed.

Lemma lk_value_same gamma kv K F cur kw : exists f nu, (forall v, lk_cov gamma kv K F cur kw v = matern_value gamma kv f nu (sdist F (scale_of (lk_def K) cur kw) v)) /\
  (lk_ok K F cur kw -> f <> General).
Proof.
  destruct K as [d|d sm p]; cbn [lk_cov lk_def].
  - exists Infinite, 0. split; [|discriminate]. intros v. cbn [matern_value]. unfold rbf_cov, gaussian, sdist. f_equal. f_equal. f_equal.
    rewrite <- Rsqr_pow2, Rsqr_sqrt; [reflexivity|]. apply rsum_nonneg. intros; apply pow2_ge_0.
  - eexists _, _. split; [intros v; reflexivity|]. intros (_ & _ & _ & M). apply M.
Qed.
Lemma lk_lip gamma kv K F cur : lk_ok K F cur [] -> exists C, 0 < C /\
  forall x y a, Rabs (lk_cov gamma kv K F cur [] (fun f => x f - a f) - lk_cov gamma kv K F cur [] (fun f => y f - a f)) <= C * euclid F x y.
Proof.
  intros OK. destruct (lk_value_same gamma kv K F cur []) as (f & nu & E & G). specialize (G OK).
  destruct (scale_low (lk_def K) F cur []) as (m & M0 & B); [apply OK|].
  exists (9 / m). split; [apply Rmult_lt_0_compat; [lra|apply Rinv_0_lt_compat; exact M0]|]. intros x y a. rewrite !E.
  eapply Rle_trans; [apply matern_lip; [exact G|apply sqrt_pos|apply sqrt_pos]|].
  pose proof (sdist_lip F (scale_of (lk_def K) cur []) m x y a M0 B) as L. unfold Rdiv in *. rewrite Rmult_assoc, (Rmult_comm (/ m)). lra.
Qed.
Lemma lk_le_1 gamma kv K F cur v : lk_ok K F cur [] -> 0 <= lk_cov gamma kv K F cur [] v <= 1.
Proof.
  intros OK. destruct (lk_value_same gamma kv K F cur []) as (f & nu & E & G). specialize (G OK). rewrite E. clear E.
  set (r := sdist _ _ _). assert (R0 : 0 <= r) by apply sqrt_pos.
  assert (H : forall g, correlation g -> 0 <= g r <= 1) by (intros g (_ & B & _); specialize (B r R0); lra).
  destruct f; try (exfalso; apply G; reflexivity); cbn [matern_value]; apply H;
    [apply matern_half_corr|apply matern_three_halves_corr|apply matern_five_halves_corr|apply gaussian_corr].
Qed.

(** ** Neighbourhoods as sets *)
Lemma find_pos n (q : nat -> nat) a : (exists i, (i < n)%nat /\ q i = a) -> 
  let s := match find (fun i => (q i =? a)%nat) (seq 0 n) with Some i => i | None => O end in (s < n)%nat /\ q s = a.
Proof.
  intros (i & Hi & E). destruct (find (fun j => (q j =? a)%nat) (seq 0 n)) as [j|] eqn:Ef.
  - apply find_some in Ef as [I Eq]. apply in_seq in I. apply Nat.eqb_eq in Eq. split; [lia|exact Eq].
  - exfalso. assert (IN : In i (seq 0 n)) by (apply in_seq; lia). pose proof (find_none _ _ Ef i IN) as X. cbn beta in X.
    rewrite E, Nat.eqb_refl in X. discriminate X.
Qed.
Lemma inj_onto n (p q : nat -> nat) : (forall i j, (i < n)%nat -> (j < n)%nat -> p i = p j -> i = j) ->
  (forall i, (i < n)%nat -> exists j, (j < n)%nat /\ q j = p i) ->
  (forall i j, (i < n)%nat -> (j < n)%nat -> q i = q j -> i = j) -> forall j, (j < n)%nat -> exists i, (i < n)%nat /\ p i = q j.
Proof.
  intros IP SUB IQ j Hj.
  set (s := fun i => match find (fun l => (q l =? p i)%nat) (seq 0 n) with Some l => l | None => O end).
  assert (SP : forall i, (i < n)%nat -> (s i < n)%nat /\ q (s i) = p i) by (intros i Hi; apply (find_pos n q (p i) (SUB i Hi))).
  assert (PM : perm_on n s).
  { split; [intros i Hi; apply SP; exact Hi|]. intros a b Ha Hb E. apply IP; auto.
    rewrite <- (proj2 (SP a Ha)), <- (proj2 (SP b Hb)), E. reflexivity. }
  destruct (perm_on_surj n s PM j Hj) as (i & Hi & E). exists i. split; [exact Hi|]. rewrite <- (proj2 (SP i Hi)), E. reflexivity.
Qed.
Lemma nearest_set test train N x n q p : nearest_rows test train N x n q -> strictly_nearest test train N x n p ->
  exists s, perm_on n s /\ forall j, (j < n)%nat -> q j = p (s j).
Proof.
  intros (QB & QI & QS & QO) (PB & PI & PO).
  assert (SUB : forall j, (j < n)%nat -> exists i, (i < n)%nat /\ p i = q j).
  { intros j Hj. destruct (list_in_dec n p (q j)) as [Y|NI]; [exact Y|]. exfalso.
    assert (ALL : forall i, (i < n)%nat -> exists l, (l < n)%nat /\ q l = p i).
    { intros i Hi. destruct (list_in_dec n q (p i)) as [Y|NQ]; [exact Y|]. exfalso.
      pose proof (QO (p i) (PB i Hi) NQ j Hj). pose proof (PO (q j) (QB j Hj) NI i Hi). lra. }
    destruct (inj_onto n p q PI ALL QI j Hj) as (i & Hi & E). exact (NI i Hi E). }
  exists (fun j => match find (fun l => (p l =? q j)%nat) (seq 0 n) with Some l => l | None => O end).
  assert (SP := fun j Hj => find_pos n p (q j) (SUB j Hj)). cbn zeta in SP.
  split; [split|].
  - intros j Hj. apply (SP j Hj).
  - intros a b Ha Hb E. apply QI; auto. rewrite <- (proj2 (SP a Ha)), <- (proj2 (SP b Hb)), E. reflexivity.
  - intros j Hj. symmetry. apply (SP j Hj).
Qed.

(** ** Kriging with two right-hand sides *)
Lemma dot_bound n (u v : nat -> R) a b : 0 <= a -> 0 <= b -> rsum n (fun i => u i ^ 2) <= a ^ 2 -> rsum n (fun i => v i ^ 2) <= b ^ 2 ->
  Rabs (dot n u v) <= a * b.
Proof.
  intros A0 B0 U V. apply Rsqr_incr_0_var; [|apply Rmult_le_pos; auto]. rewrite <- Rsqr_abs. unfold Rsqr.
  pose proof (cauchy_schwarz n u v) as CS. fold (dot n u v) in CS.
  assert (0 <= rsum n (fun i => u i ^ 2)) by (apply rsum_nonneg; intros; apply pow2_ge_0).
  assert (0 <= rsum n (fun i => v i ^ 2)) by (apply rsum_nonneg; intros; apply pow2_ge_0).
  replace (dot n u v * dot n u v) with (dot n u v ^ 2) by ring. apply Rle_trans with (1 := CS).
  replace (a * b * (a * b)) with (a ^ 2 * b ^ 2) by ring. apply Rmult_le_compat; auto.
Qed.
Lemma sum_sq_bound n (v : nat -> R) d : (forall i, (i < n)%nat -> Rabs (v i) <= d) -> rsum n (fun i => v i ^ 2) <= sqrt (INR n) ^ 2 * d ^ 2.
Proof.
  intros B. rewrite <- Rsqr_pow2, Rsqr_sqrt by apply pos_INR. rewrite <- rsum_const. apply rsum_le. intros i Hi.
  rewrite <- pow2_abs. apply pow_incr. split; [apply Rabs_pos|apply B; exact Hi].
Qed.
Lemma kriging_lip n A c w w' k k' y d Y : 0 < c -> coercive n A c -> solves n A w k -> solves n A w' k' -> 0 <= d -> 0 <= Y ->
  (forall i, (i < n)%nat -> Rabs (k i - k' i) <= d) -> (forall i, (i < n)%nat -> Rabs (y i) <= Y) ->
  Rabs (dot n w y - dot n w' y) <= INR n * Y * d / c.
Proof.
  intros C0 CO W W' D0 Y0 KB YB.
  assert (SO : solves n A (fun i => w i - w' i) (fun i => k i - k' i)).
  { intros i Hi. rewrite <- (W i Hi), <- (W' i Hi), <- rsum_minus. apply rsum_ext. intros; ring. }
  destruct (coercive_weights n A _ _ c C0 CO SO) as (_ & W2 & _).
  pose proof (sum_sq_bound n _ d KB) as KS. pose proof (sum_sq_bound n _ Y YB) as YS. pose proof (sqrt_pos (INR n)) as SN.
  replace (dot n w y - dot n w' y) with (dot n (fun i => w i - w' i) y) by (unfold dot; rewrite <- rsum_minus; apply rsum_ext; intros; ring).
  assert (I0 : 0 < / c) by (apply Rinv_0_lt_compat; exact C0).
  assert (B : Rabs (dot n (fun i => w i - w' i) y) <= sqrt (INR n) * d / c * (sqrt (INR n) * Y)).
  { apply dot_bound.
    - apply Rmult_le_pos; [apply Rmult_le_pos; auto|lra].
    - apply Rmult_le_pos; auto.
    - apply Rmult_le_reg_l with (c ^ 2); [apply pow_lt; exact C0|].
      replace (c ^ 2 * (sqrt (INR n) * d / c) ^ 2) with (sqrt (INR n) ^ 2 * d ^ 2) by (field; lra). lra.
    - rewrite Rpow_mult_distr. exact YS. }
  replace (INR n * Y * d / c) with (sqrt (INR n) * d / c * (sqrt (INR n) * Y)); [exact B|].
  rewrite <- (sqrt_sqrt (INR n)) at 3 by apply pos_INR. field. lra.
Qed.
Lemma kriging_var_lip n A c w w' k k' d : 0 < c -> symmetric n A -> coercive n A c -> solves n A w k -> solves n A w' k' -> 0 <= d ->
  (forall i, (i < n)%nat -> Rabs (k i - k' i) <= d) -> (forall i, (i < n)%nat -> Rabs (k i) <= 1) -> (forall i, (i < n)%nat -> Rabs (k' i) <= 1) ->
  Rabs (dot n w k - dot n w' k') <= 2 * INR n * d / c.
Proof.
  intros C0 SY CO W W' D0 KB K1 K1'.
  assert (E : dot n w k - dot n w' k' = (dot n w k - dot n w' k) + (dot n w k' - dot n w' k')).
  { assert (X : dot n w k' = dot n w' k); [|rewrite X; ring].
    unfold dot. rewrite (rsum_ext n (fun i => w i * k' i) (fun i => rsum n (fun j => w i * A i j * w' j)))
      by (intros i Hi; rewrite <- (W' i Hi), <- rsum_scal; apply rsum_ext; intros; ring).
    rewrite (rsum_ext n (fun i => w' i * k i) (fun i => rsum n (fun j => w' i * A i j * w j)))
      by (intros i Hi; rewrite <- (W i Hi), <- rsum_scal; apply rsum_ext; intros; ring).
    rewrite rsum_swap. apply rsum2_ext. intros i j Hi Hj. rewrite (SY j i) by auto. ring. }
  rewrite E. eapply Rle_trans; [apply Rabs_triang|].
  pose proof (kriging_lip n A c w w' k k' k d 1 C0 CO W W' D0 ltac:(lra) KB K1) as A1.
  pose proof (kriging_lip n A c w w' k k' k' d 1 C0 CO W W' D0 ltac:(lra) KB K1') as A2.
  replace (2 * INR n * d / c) with (INR n * 1 * d / c + INR n * 1 * d / c) by (field; lra). lra.
Qed.

Section Smooth.
Variables (gamma : R -> R) (kv : R -> R -> R).
Variable ls : lsolver.
Hypothesis EX : exact_solver ls.
Variable knn : dict nnval -> list point -> point -> nat -> list (nat * R).
Variable hnsw : nnval -> list point -> point -> nat -> list (nat * R).
Variable dist : dict nnval -> point -> point -> R.
Hypothesis Hsk : sklearn_ok knn dist.

(** The prediction in terms of the neighbourhood [p] instead of the lookup's listing of it. *)
Lemma predict_by_set en method kw w g K cur test train targets N M n ex :
  lower method = "exact"%string -> euclidean_kw kw -> nn_init en (rows_of train) n method kw = Ok w -> (0 < n <= N /\ 0 < M)%nat ->
  dataset test M -> dataset train N -> ndim test = ndim train -> feature_count test = feature_count train ->
  lk_ok K (feature_count train) cur [] -> shape targets = N :: ex -> no_coincidence ex [n] ->
  shape (gp_Kout g) = [] -> at_ (gp_Kout g) [] = 1 -> 0 <= gp_var_scale g -> uniform_noise (gp_noise g) -> sound_noise (gp_noise g) train N M n ->
  let k := lk_cov gamma kv K (feature_count train) cur [] in
  exists mean var,
    regress_any ls knn hnsw (Univariate (lib_model gamma kv g K cur)) test train w targets = Ok (mean, var) /\
    forall x p, (x < M)%nat -> strictly_nearest test train N x n p ->
      let A := nbr_matrix k (gp_noise g) train (fun _ => p) 0 in
      (forall e, inb ex e -> kriging n A (fun j => kcov k test train x (p j)) (fun j => at_ targets (p j :: e)) (at_ mean (x :: e))) /\
      exists t, kriging n A (fun j => kcov k test train x (p j)) (fun j => kcov k test train x (p j)) t /\ at_ var [x] = gp_var_scale g * (1 - t).
Proof.
  intros Hm He Hi Hn D1 D2 ND FC OK HT NC SK K1 SC UN SN k.
  destruct (regress_any_nbr gamma kv ls EX knn hnsw dist Hsk en method kw w g K cur [] test train targets N M n ex)
    as (mean & var & E & _ & _ & NS & V); auto; [apply uniform_fits; auto|].
  exists mean, var. split; [exact E|]. intros x p Hx SP A.
  destruct (V x Hx) as (NR & Mx & (wv & W & Vx) & _). specialize (NS x Hx). fold k in Mx, W, Vx, NS.
  set (q := nbr knn hnsw w test) in *.
  destruct (nearest_set test train N x n (q x) p NR SP) as (s & PM & QE).
  assert (UNI : forall i y j, noise_at (gp_noise g) None y i = noise_at (gp_noise g) None 0 j).
  { intros i y j. destruct UN as [->|[v ->]]; reflexivity. }
  assert (AE : forall i j, (i < n)%nat -> (j < n)%nat -> nbr_matrix k (gp_noise g) train q x i j = A (s i) (s j)).
  { intros i j Hi0 Hj0. unfold nbr_matrix, plus_diag, A, nbr_matrix, plus_diag. rewrite !QE by auto. rewrite (UNI i x (s i)).
    destruct (Nat.eqb_spec i j) as [->|NE]; [rewrite Nat.eqb_refl; reflexivity|].
    destruct (Nat.eqb_spec (s i) (s j)) as [EQ|]; [|reflexivity]. apply PM in EQ; auto. contradiction. }
  assert (NS2 : nonsingular n (fun i j => A (s i) (s j))).
  { intros v Hv. apply NS. intros i Hi0. rewrite <- (Hv i Hi0). apply rsum_ext. intros j Hj0. rewrite AE by auto. reflexivity. }
  assert (NSA : nonsingular n A).
  { intros v Hv j Hj. destruct (perm_on_surj n s PM j Hj) as (i & Hi0 & <-).
    apply (NS2 (fun i => v (s i))); [|exact Hi0]. intros l Hl.
    rewrite (rsum_perm n s (fun j => A (s l) j * v j) PM). apply Hv. apply PM. exact Hl. }
  assert (SOL : forall u, solves n (nbr_matrix k (gp_noise g) train q x) u (fun j => kcov k test train x (q x j)) ->
            solves n (fun i j => A (s i) (s j)) u (fun j => kcov k test train x (p (s j)))).
  { intros u U i Hi0. rewrite <- QE by auto. rewrite <- (U i Hi0). apply rsum_ext. intros j Hj0. rewrite AE by auto. reflexivity. }
  split.
  - intros e Hie. destruct (Mx e Hie) as (u & U & Eu).
    apply (kriging_perm n A (fun j => kcov k test train x (p j)) (fun j => at_ targets (p j :: e)) s _ PM NS2); [|exact NSA].
    exists u. split; [apply SOL; exact U|]. rewrite Eu. unfold dot. apply rsum_ext. intros j Hj. rewrite QE by auto. reflexivity.
  - exists (dot n wv (fun j => kcov k test train x (q x j))). split; [|exact Vx].
    apply (kriging_perm n A (fun j => kcov k test train x (p j)) (fun j => kcov k test train x (p j)) s _ PM NS2); [|exact NSA].
    exists wv. split; [apply SOL; exact W|]. unfold dot. apply rsum_ext. intros j Hj. rewrite QE by auto. reflexivity.
Qed.

Lemma smooth_any K cur train N n nu Y sc : dataset train N -> lk_ok K (feature_count train) cur [] -> (0 < n <= N)%nat -> 0 < nu -> 0 <= Y -> 0 <= sc ->
  exists C, 0 < C /\ forall en method kw w g test test' targets M M' ex,
  lower method = "exact"%string -> euclidean_kw kw -> nn_init en (rows_of train) n method kw = Ok w -> (0 < M /\ 0 < M')%nat ->
  dataset test M -> ndim test = ndim train -> feature_count test = feature_count train ->
  dataset test' M' -> ndim test' = ndim train -> feature_count test' = feature_count train -> shape targets = N :: ex -> no_coincidence ex [n] ->
  (forall a e, (a < N)%nat -> inb ex e -> Rabs (at_ targets (a :: e)) <= Y) ->
  shape (gp_Kout g) = [] -> at_ (gp_Kout g) [] = 1 -> gp_var_scale g = sc -> uniform_noise (gp_noise g) ->
  robust (gp_noise g) nu train N 1 1 ->
  exists mean var mean' var',
    regress_any ls knn hnsw (Univariate (lib_model gamma kv g K cur)) test train w targets = Ok (mean, var) /\
    regress_any ls knn hnsw (Univariate (lib_model gamma kv g K cur)) test' train w targets = Ok (mean', var') /\
    forall x x' p, (x < M)%nat -> (x' < M')%nat -> strictly_nearest test train N x n p -> strictly_nearest test' train N x' n p ->
      Rabs (at_ var' [x'] - at_ var [x]) <= C * point_dist test test' (feature_count train) x x' /\
      forall e, inb ex e -> Rabs (at_ mean' (x' :: e) - at_ mean (x :: e)) <= C * point_dist test test' (feature_count train) x x'.
Proof.
  intros D2 OK Hn NU Y0 SC0.
  destruct (robust_coercive gamma kv K cur train N nu OK NU) as (c & C0 & CO).
  destruct (lk_lip gamma kv K (feature_count train) cur OK) as (L & L0 & LIP).
  assert (N0 : 0 <= INR n) by apply pos_INR. assert (I0 : 0 < / c) by (apply Rinv_0_lt_compat; exact C0).
  set (C := 1 + INR n * Y * L / c + sc * (2 * INR n * L / c)).
  assert (P1 : 0 <= INR n * Y * L / c) by (unfold Rdiv; repeat apply Rmult_le_pos; lra).
  assert (P2 : 0 <= sc * (2 * INR n * L / c)) by (unfold Rdiv; repeat apply Rmult_le_pos; lra).
  exists C. split; [unfold C; lra|].
  intros en method kw w g test test' targets M M' ex Hm He Hi M0' D1 ND FC D1' ND' FC' HT NC YB SK K1 GS UN RB.
  assert (UNI : forall i y j z, noise_at (gp_noise g) None y i = noise_at (gp_noise g) None z j).
  { intros i y j z. destruct UN as [->|[v ->]]; reflexivity. }
  assert (RB' : forall M n, robust (gp_noise g) nu train N M n).
  { intros M0 n0. destruct RB as [H|[H D]]; [left|right; split; [|exact D]]; intros y i _ _; rewrite (UNI i y O O); apply H; lia. }
  destruct (predict_by_set en method kw w g K cur test train targets N M n ex) as (mean & var & E & V); auto; [lia|lra|apply (robust_sound _ nu); auto|].
  destruct (predict_by_set en method kw w g K cur test' train targets N M' n ex) as (mean' & var' & E' & V'); auto; [lia|lra|apply (robust_sound _ nu); auto|].
  exists mean, var, mean', var'. split; [exact E|]. split; [exact E'|]. intros x x' p Hx Hx' SP SP'.
  destruct (V x p Hx SP) as (Mx & (t & T & ->)). destruct (V' x' p Hx' SP') as (Mx' & (t' & T' & ->)).
  set (k := lk_cov gamma kv K (feature_count train) cur []) in *. set (A := nbr_matrix k (gp_noise g) train (fun _ => p) 0) in *.
  assert (COA : coercive n A c). { apply (CO (gp_noise g) 1%nat n (fun _ => p) O (RB' _ _) Nat.lt_0_1); apply SP. }
  assert (SYA : symmetric n A) by apply nbr_sym.
  set (r := point_dist test test' (feature_count train) x x'). assert (R0 : 0 <= r) by apply sqrt_pos.
  assert (LR : 0 <= L * r) by (apply Rmult_le_pos; lra).
  assert (KB : forall i, (i < n)%nat -> Rabs (kcov k test' train x' (p i) - kcov k test train x (p i)) <= L * r).
  { intros i _. rewrite Rabs_minus_sym. apply LIP. }
  assert (KA : forall X y i, Rabs (kcov k X train y (p i)) <= 1).
  { intros X y i. pose proof (lk_le_1 gamma kv K (feature_count train) cur (fun f => feature X y f - feature train (p i) f) OK) as B.
    unfold kcov. rewrite Rabs_pos_eq; apply B. }
  split.
  - destruct T as (v & W & ->). destruct T' as (v' & W' & ->). rewrite GS.
    pose proof (kriging_var_lip n A c v' v _ _ (L * r) C0 SYA COA W' W LR KB (fun i _ => KA test' x' i) (fun i _ => KA test x i)) as B.
    set (a := dot n v' _) in *. set (b := dot n v _) in *.
    replace (sc * (1 - a) - sc * (1 - b)) with (sc * (b - a)) by ring. rewrite Rabs_mult, (Rabs_pos_eq sc SC0), Rabs_minus_sym.
    apply Rle_trans with (sc * (2 * INR n * (L * r) / c)); [apply Rmult_le_compat_l; auto|].
    replace (sc * (2 * INR n * (L * r) / c)) with (sc * (2 * INR n * L / c) * r) by (field; lra). apply Rmult_le_compat_r; [exact R0|unfold C; lra].
  - intros e Hie. destruct (Mx e Hie) as (v & W & ->). destruct (Mx' e Hie) as (v' & W' & ->).
    pose proof (kriging_lip n A c v' v _ _ (fun j => at_ targets (p j :: e)) (L * r) Y C0 COA W' W LR Y0 KB) as B.
    eapply Rle_trans; [apply B; intros i Hi0; apply YB; [apply SP; exact Hi0|exact Hie]|].
    replace (INR n * Y * (L * r) / c) with (INR n * Y * L / c * r) by (field; lra). apply Rmult_le_compat_r; [exact R0|unfold C; lra].
Qed.

(** ** Nearby rows have the same neighbourhood *)
Lemma euclid_lip F x y a : Rabs (euclid F x a - euclid F y a) <= euclid F x y.
Proof.
  pose proof (sdist_lip F (fun _ => 1) 1 x y a ltac:(lra) (fun f _ => Rle_refl 1)) as H.
  assert (E : forall u, sdist F (fun _ => 1) (fun f => u f - a f) = euclid F u a).
  { intros u. unfold sdist, scaled_sqdist, euclid, sqdist. f_equal. apply rsum_ext. intros f _. unfold Rdiv. rewrite Rinv_1. ring. }
  rewrite !E in H. unfold Rdiv in H. rewrite Rinv_1, Rmult_1_r in H. exact H.
Qed.
Lemma finite_gap m (P : nat -> R -> Prop) : (forall a d d', P a d -> 0 < d' <= d -> P a d') -> (forall a, (a < m)%nat -> exists d, 0 < d /\ P a d) ->
  exists d, 0 < d /\ forall a, (a < m)%nat -> P a d.
Proof.
  intros MON H. induction m as [|m IH]; [exists 1; split; [lra|intros; lia]|].
  destruct IH as (d & D0 & B); [intros a Ha; apply H; lia|]. destruct (H m ltac:(lia)) as (d' & D0' & B').
  exists (Rmin d d'). assert (0 < Rmin d d') by (apply Rmin_glb_lt; auto). split; [auto|].
  intros a Ha. destruct (Nat.eq_dec a m) as [->|]; [apply (MON m d'); auto; split; [auto|apply Rmin_r]|].
  apply (MON a d); [apply B; lia|split; [auto|apply Rmin_l]].
Qed.
Lemma strictly_nearest_open test train N x n p : strictly_nearest test train N x n p -> exists d, 0 < d /\
  forall test' x', point_dist test test' (feature_count train) x x' < d -> strictly_nearest test' train N x' n p.
Proof.
  intros (PB & PI & PO).
  set (F := feature_count train). set (D := fun a => euclid F (feature test x) (feature train a)).
  destruct (finite_gap N (fun a d => (forall j, (j < n)%nat -> p j <> a) -> forall j, (j < n)%nat -> D (p j) + 2 * d <= D a)) as (d & D0 & G).
  - intros a d d' H L NA j Hj. specialize (H NA j Hj). lra.
  - intros a Ha. destruct (list_in_dec n p a) as [(j & Hj & Ej)|NA].
    + exists 1. split; [lra|]. intros NA. exfalso. exact (NA j Hj Ej).
    + destruct (finite_gap n (fun j d => D (p j) + 2 * d <= D a)) as (d & D0 & G).
      * intros j d d' H L. lra.
      * intros j Hj. assert (LT : D (p j) < D a). { unfold D, euclid. apply sqrt_lt_1_alt. split; [apply sqdist_nonneg|]. apply PO; auto. }
        exists ((D a - D (p j)) / 2). split; lra.
      * exists d. split; [exact D0|]. intros _ j Hj. apply G. exact Hj.
  - exists d. split; [exact D0|]. intros test' x' CL. split; [exact PB|]. split; [exact PI|]. intros a Ha NA j Hj.
    specialize (G a Ha NA j Hj).
    assert (T : forall b, Rabs (D b - euclid F (feature test' x') (feature train b)) <= point_dist test test' F x x').
    { intros b. unfold D. apply euclid_lip. }
    assert (LT : euclid F (feature test' x') (feature train (p j)) < euclid F (feature test' x') (feature train a)).
    { pose proof (T a) as T1. pose proof (T (p j)) as T2. fold F in CL. revert T1 T2. unfold Rabs. repeat destruct Rcase_abs; lra. }
    unfold row_dist. fold F. unfold euclid in LT. apply sqrt_lt_0_alt in LT. exact LT.
Qed.
End Smooth.
