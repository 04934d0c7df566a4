(** Property theorems C55: hierarchical (knot) hyperparameters. *)
From Coq Require Import Lia Lra.
From Verif Require Import Base NdModel NdFacts RSum HyperModel NamedModel NamedSpec TensorModel TensorSpec KernelModel KernelSpec
  LinAlgModel LinAlgSpec LinAlgFacts GPSpec Gauss FlowModel FlowSpec PointwiseSpec PointwiseProofs HierModel HierSpec HierProofs.
Local Open Scope R_scope.

(** Construction demands as many knot values as knot feature rows: otherwise ValueError. *)
Theorem C55_knot_count_checked : forall hk cur k Z v n,
  pointwise_kernel (feature_count Z) (hk_diffs hk cur) k -> dataset Z n ->
  (List.length (v_elems v) = n -> exists h, hier_init hk cur Z v = Ok h) /\
  (List.length (v_elems v) <> n -> hier_init hk cur Z v = Err ValueError).
Proof.
  intros hk cur k Z v n P D. split; intros H.
  - destruct (hier_init_ok hk cur k Z v n P D H) as (K & E & _). eexists; exact E.
  - exact (hier_init_mismatch hk cur Z v n D H).
Qed.
Print Assumptions C55_knot_count_checked.

(** The value at every row of a batch is the posterior mean, given the current knot values, of a Gaussian process
    with the higher-level kernel and the parameter's noise. *)
Theorem C55_value_is_posterior_mean : forall ls, exact_solver ls ->
  forall hk cur k Z v n h X b noise name kw,
  pointwise_kernel (feature_count Z) (hk_diffs hk cur) k ->
  dataset Z n -> knots_ok v name n kw ->
  hier_init hk cur Z v = Ok h -> dataset X b -> ndim X = ndim Z -> feature_count X = feature_count Z ->
  (forall i j, kcov k Z Z i j = kcov k Z Z j i) ->
  nonsingular n (plus_diag (kcov k Z Z) (fun _ => noise)) ->
  exists y, hier_call ls cur noise h X kw = Ok y /\ shape y = (if (b =? 1)%nat then [] else [b]) /\
    forall x, (x < b)%nat -> knot_mean k noise Z n (knot_value v cur kw) X x (at_ y (batch_idx b x)).
Proof. exact hier_kriging. Qed.
Print Assumptions C55_value_is_posterior_mean.

(** With a Gaussian higher-level kernel and positive noise this needs no nonsingularity assumption: every set of
    knots, also with repeated rows, gives a value. *)
Theorem C55_gaussian_knots_always_defined : forall ls, exact_solver ls ->
  forall d cur Z v n X b noise name kw,
  deformation_ok d (feature_count Z) [] -> (0 < feature_count Z)%nat -> positive_scales d (feature_count Z) cur [] -> metric_of d = F2 ->
  dataset Z n -> knots_ok v name n kw -> dataset X b -> ndim X = ndim Z -> feature_count X = feature_count Z -> 0 < noise ->
  exists h y, hier_init (mkHK d (fun cur D => rbf_call d cur D [])) cur Z v = Ok h /\
    hier_call ls cur noise h X kw = Ok y /\ shape y = (if (b =? 1)%nat then [] else [b]) /\
    forall x, (x < b)%nat -> knot_mean (rbf_cov d (feature_count Z) cur []) noise Z n (knot_value v cur kw) X x (at_ y (batch_idx b x)).
Proof. exact hier_rbf_knots. Qed.
Print Assumptions C55_gaussian_knots_always_defined.

(** At the knots: exactly the knot values when the noise is zero; in general off by noise times the solution of the
    knot system. *)
Theorem C55_at_the_knots : forall ls, exact_solver ls -> forall hk cur k Z v n h noise name kw,
  pointwise_kernel (feature_count Z) (hk_diffs hk cur) k ->
  dataset Z n -> knots_ok v name n kw -> hier_init hk cur Z v = Ok h ->
  nonsingular n (plus_diag (kcov k Z Z) (fun _ => noise)) ->
  exists y alpha, hier_call ls cur noise h Z kw = Ok y /\
    solves n (plus_diag (kcov k Z Z) (fun _ => noise)) alpha (knot_value v cur kw) /\
    forall i, (i < n)%nat -> at_ y (batch_idx n i) = knot_value v cur kw i - noise * alpha i.
Proof. exact hier_at_knots. Qed.
Print Assumptions C55_at_the_knots.

Theorem C55_noise_free_interpolates : forall ls, exact_solver ls -> forall hk cur k Z v n h name kw,
  pointwise_kernel (feature_count Z) (hk_diffs hk cur) k ->
  dataset Z n -> knots_ok v name n kw -> hier_init hk cur Z v = Ok h ->
  nonsingular n (plus_diag (kcov k Z Z) (fun _ => 0)) ->
  exists y, hier_call ls cur 0 h Z kw = Ok y /\
    forall i, (i < n)%nat -> at_ y (batch_idx n i) = knot_value v cur kw i.
Proof.
  intros ls EX hk cur k Z v n h name kw P D KO I NS.
  destruct (hier_at_knots ls EX hk cur k Z v n h 0 name kw P D KO I NS) as (y & al & E & _ & V).
  exists y. split; auto. intros i Hi. rewrite V by auto. ring.
Qed.
Print Assumptions C55_noise_free_interpolates.

(** Kernels with a hierarchical length scale divide the distances of batch row x by that row's own length scale, the
    knot posterior mean at the row's features. *)
Theorem C55_rbf_uses_row_length_scale : forall ls, exact_solver ls ->
  forall hk cur k Z v n h X b noise kw dists ds,
  pointwise_kernel (feature_count Z) (hk_diffs hk cur) k ->
  dataset Z n -> knots_ok v "length_scale" n kw ->
  hier_init hk cur Z v = Ok h -> dataset X b -> ndim X = ndim Z -> feature_count X = feature_count Z ->
  (forall i j, kcov k Z Z i j = kcov k Z Z j i) ->
  nonsingular n (plus_diag (kcov k Z Z) (fun _ => noise)) ->
  shape dists = (b :: ds)%list ->
  exists (len : nat -> R) K, hier_rbf ls F2 cur noise h dists (Some X) kw = Ok K /\ shape K = shape dists /\
    (forall x, (x < b)%nat -> knot_mean k noise Z n (knot_value v cur kw) X x (len x)) /\
    forall x idx, inb (shape dists) (x :: idx) -> at_ K (x :: idx) = exp (- (at_ dists (x :: idx) / len x ^ 2) / 2).
Proof. exact hier_rbf_spec. Qed.
Print Assumptions C55_rbf_uses_row_length_scale.

Theorem C55_matern_uses_row_length_scale : forall ls, exact_solver ls ->
  forall gamma kv sm p hk cur k Z v n h X b noise kw dists ds,
  nm_name sm = "smoothness"%string ->
  pointwise_kernel (feature_count Z) (hk_diffs hk cur) k ->
  dataset Z n -> knots_ok v "length_scale" n kw ->
  hier_init hk cur Z v = Ok h -> dataset X b -> ndim X = ndim Z -> feature_count X = feature_count Z ->
  (forall i j, kcov k Z Z i j = kcov k Z Z j i) ->
  nonsingular n (plus_diag (kcov k Z Z) (fun _ => noise)) ->
  shape dists = (b :: ds)%list ->
  exists (len : nat -> R) K,
    hier_matern gamma kv ls L2 sm (set_matern_fn p) cur noise h dists (Some X) kw = Ok K /\ shape K = shape dists /\
    (forall x, (x < b)%nat -> knot_mean k noise Z n (knot_value v cur kw) X x (len x)) /\
    forall x idx, inb (shape dists) (x :: idx) -> at_ K (x :: idx) =
      matern_value gamma kv (formula_for p) (kw_or kw "smoothness" (cur (nm_loc sm))) (at_ dists (x :: idx) / len x).
Proof. exact hier_matern_spec. Qed.
Print Assumptions C55_matern_uses_row_length_scale.

(** Without the features of the batch the value does not exist: KeyError, whatever the kernel. *)
Theorem C55_batch_features_required : forall ls m cur noise h fn dists kw,
  hier_embed ls m cur noise h fn dists None kw = Err KeyError.
Proof. intros. unfold hier_embed, hier_filter. destruct (vec_filter (h_params h) cur kw). reflexivity. Qed.
Print Assumptions C55_batch_features_required.

(** ** Witnesses: knots at 0 (and 1), all values 1, Gaussian higher-level kernel whose length scale is stored at
    location 5. *)
Definition h_ex_def : deformation := Iso F2 (mkNamed "length_scale" 5).
Definition h_ex_hk : hkernel := mkHK h_ex_def (fun cur D => rbf_call h_ex_def cur D []).
Definition h_ex_Z (n : nat) : nd R := mkNd [n; 1%nat] (fun idx => INR (hd 0%nat idx)).
Definition h_ex_v (n : nat) : nvec := snd (vec_init empty_store "length_scale" (repeat 0%nat n)).
Definition h_ex_cur (l : R) (x : nat) : R := if (x =? 5)%nat then l else 1.

Lemma h_ex_pointwise n l : 0 < l -> pointwise_kernel (feature_count (h_ex_Z n)) (hk_diffs h_ex_hk (h_ex_cur l)) (rbf_cov h_ex_def 1 (h_ex_cur l) []).
Proof.
  intros Hl. apply (rbf_hk_pointwise h_ex_def 1 (h_ex_cur l)); try reflexivity.
  - apply Nat.lt_0_1.
  - intros f _. unfold scale_of, h_ex_def, kw_or, h_ex_cur. cbn. exact Hl.
Qed.
Lemma h_ex_dataset n : dataset (h_ex_Z n) n.
Proof. right. exists 1%nat. reflexivity. Qed.
Lemma h_ex_knots n : knots_ok (h_ex_v n) "length_scale" n [].
Proof.
  exists empty_store, (repeat 0%nat n), 0%nat. split; [reflexivity|]. split; [apply repeat_length|].
  split; [constructor|]. split; [lia|reflexivity].
Qed.
Lemma h_ex_value n l i : (i < n)%nat -> (n <= 2)%nat -> knot_value (h_ex_v n) (h_ex_cur l) [] i = 1.
Proof.
  intros Hi Hn. destruct n as [|[|[|n]]]; [lia| | |lia]; destruct i as [|[|i]]; try lia; reflexivity.
Qed.
Lemma h_ex_kcov n l i j : 0 < l -> kcov (rbf_cov h_ex_def 1 (h_ex_cur l) []) (h_ex_Z n) (h_ex_Z n) i j = exp (- ((INR i - INR j) / l) ^ 2 / 2).
Proof.
  intros Hl. unfold kcov, rbf_cov, scaled_sqdist. cbn [rsum].
  assert (F : forall a, feature (h_ex_Z n) a 0 = INR a) by reflexivity. rewrite !F.
  assert (S : scale_of h_ex_def (h_ex_cur l) [] 0 = l) by reflexivity. rewrite S. f_equal. f_equal. f_equal. rewrite Rplus_0_l. f_equal. f_equal. ring.
Qed.

(** The constructor's default noise 1e-5 makes the value at a knot differ from the knot value. *)
Theorem C55_default_noise_interpolation_refuted : exists ls, exact_solver ls /\ exists h y,
  hier_init h_ex_hk (h_ex_cur 1) (h_ex_Z 1) (h_ex_v 1) = Ok h /\
  hier_call ls (h_ex_cur 1) (1 / 100000) h (h_ex_Z 1) [] = Ok y /\
  knot_value (h_ex_v 1) (h_ex_cur 1) [] 0 = 1 /\ at_ y [] = 100000 / 100001.
Proof.
  exists gauss. split; [exact gauss_exact|].
  assert (P := h_ex_pointwise 1 1 Rlt_0_1). assert (D := h_ex_dataset 1).
  destruct (hier_init_ok _ _ _ _ (h_ex_v 1) 1 P D eq_refl) as (K & EI & _).
  assert (NS : nonsingular 1 (plus_diag (kcov (rbf_cov h_ex_def 1 (h_ex_cur 1) []) (h_ex_Z 1) (h_ex_Z 1)) (fun _ => 1 / 100000))).
  { apply rbf_kcov_ns. lra. }
  destruct (hier_at_knots gauss gauss_exact _ _ _ _ _ _ _ (1 / 100000) "length_scale" [] P D (h_ex_knots 1) EI NS) as (y & al & E & SOL & V).
  eexists; exists y. split; [exact EI|]. split; [exact E|].
  assert (K1 : knot_value (h_ex_v 1) (h_ex_cur 1) [] 0 = 1) by (apply h_ex_value; lia). split; [exact K1|].
  specialize (V 0%nat ltac:(lia)). cbn [batch_idx Nat.eqb] in V. rewrite V, K1.
  specialize (SOL 0%nat ltac:(lia)). cbn beta in SOL. rewrite K1 in SOL. cbn [rsum] in SOL. unfold plus_diag in SOL.
  rewrite h_ex_kcov in SOL by lra. cbn [Nat.eqb INR] in SOL.
  replace (- ((0 - 0) / 1) ^ 2 / 2) with 0 in SOL by field. rewrite exp_0 in SOL. lra.
Qed.
Print Assumptions C55_default_noise_interpolation_refuted.

(** The knot covariance matrix is computed by the constructor only: when a parameter of the higher-level kernel
    changes later, the value mixes old and new covariances and, even without noise, misses the knot values;
    a parameter constructed after the change does not. *)
Theorem C55_follows_higher_kernel_refuted : exists ls, exact_solver ls /\ exists h h' y y',
  hier_init h_ex_hk (h_ex_cur 1) (h_ex_Z 2) (h_ex_v 2) = Ok h /\
  hier_call ls (h_ex_cur 2) 0 h (h_ex_Z 2) [] = Ok y /\
  hier_init h_ex_hk (h_ex_cur 2) (h_ex_Z 2) (h_ex_v 2) = Ok h' /\
  hier_call ls (h_ex_cur 2) 0 h' (h_ex_Z 2) [] = Ok y' /\
  knot_value (h_ex_v 2) (h_ex_cur 2) [] 0 = 1 /\ at_ y' [0%nat] = 1 /\ 1 < at_ y [0%nat].
Proof.
  exists gauss. split; [exact gauss_exact|].
  assert (P1 := h_ex_pointwise 2 1 Rlt_0_1). assert (P2 := h_ex_pointwise 2 2 Rlt_0_2). assert (D := h_ex_dataset 2).
  destruct (hier_init_ok _ _ _ _ (h_ex_v 2) 2 P1 D eq_refl) as (K & EI & _).
  destruct (hier_init_ok _ _ _ _ (h_ex_v 2) 2 P2 D eq_refl) as (K' & EI' & _).
  assert (OFF : forall l i j, 0 < l -> (i < 2)%nat -> (j < 2)%nat ->
    kcov (rbf_cov h_ex_def 1 (h_ex_cur l) []) (h_ex_Z 2) (h_ex_Z 2) i j = if (i =? j)%nat then 1 else exp (- (1 / l) ^ 2 / 2)).
  { intros l i j Hl Hi Hj. rewrite h_ex_kcov by auto. destruct i as [|[|i]]; [| |lia]; (destruct j as [|[|j]]; [| |lia]); cbn [INR Nat.eqb];
      try (replace (- ((0 - 0) / l) ^ 2 / 2) with 0 by (field; lra)); try (replace (- ((1 - 1) / l) ^ 2 / 2) with 0 by (field; lra));
      try apply exp_0; f_equal; field; lra. }
  assert (LT : forall l, 0 < l -> 0 < exp (- (1 / l) ^ 2 / 2) < 1).
  { intros l Hl. split; [apply exp_pos|]. apply (Rlt_le_trans _ (exp 0)); [apply exp_increasing|rewrite exp_0; lra].
    assert (0 < 1 / l) by (apply Rdiv_lt_0_compat; lra). pose proof (pow_lt _ 2 H) as H2. set (z := (1 / l) ^ 2) in *. lra. }
  assert (NS : forall l, 0 < l -> nonsingular 2 (plus_diag (kcov (rbf_cov h_ex_def 1 (h_ex_cur l) []) (h_ex_Z 2) (h_ex_Z 2)) (fun _ => 0))).
  { intros l Hl x Hx. pose proof (Hx 0%nat ltac:(lia)) as A. pose proof (Hx 1%nat ltac:(lia)) as B.
    cbn [rsum] in A, B. unfold plus_diag in A, B. rewrite !OFF in A, B by (auto; lia). cbn [Nat.eqb] in A, B.
    destruct (LT l Hl) as [L1 L2]. set (a := exp (- (1 / l) ^ 2 / 2)) in *.
    
    assert (A' : x 0%nat = - (a * x 1%nat)) by lra. assert (B' : x 1%nat = - (a * x 0%nat)) by lra.
    assert (X0 : (1 - a * a) * x 0%nat = 0).
    { replace ((1 - a * a) * x 0%nat) with (x 0%nat - - (a * - (a * x 0%nat))) by ring. rewrite <- B', <- A'. ring. }
    assert (X1 : (1 - a * a) * x 1%nat = 0).
    { replace ((1 - a * a) * x 1%nat) with (x 1%nat - - (a * - (a * x 1%nat))) by ring. rewrite <- A', <- B'. ring. }
    assert (0 < 1 - a * a) by nra.
    intros i Hi. destruct i as [|[|i]]; [| |lia]; [destruct (Rmult_integral _ _ X0)|destruct (Rmult_integral _ _ X1)]; lra. }
  destruct (hier_value gauss gauss_exact _ _ _ _ _ _ _ _ _ (h_ex_Z 2) 2 0 "length_scale" [] P1 P2 D (h_ex_knots 2) EI D eq_refl eq_refl (NS 1 Rlt_0_1))
    as (y & al & E & _ & SOL & V).
  destruct (hier_at_knots gauss gauss_exact _ _ _ _ _ _ _ 0 "length_scale" [] P2 D (h_ex_knots 2) EI' (NS 2 Rlt_0_2)) as (y' & al' & E' & _ & V').
  eexists; eexists; exists y, y'. split; [exact EI|]. split; [exact E|]. split; [exact EI'|]. split; [exact E'|].
  assert (KV : forall i, (i < 2)%nat -> knot_value (h_ex_v 2) (h_ex_cur 2) [] i = 1) by (intros; apply h_ex_value; lia).
  split; [apply KV; lia|]. split.
  - specialize (V' 0%nat ltac:(lia)). cbn [batch_idx Nat.eqb] in V'. rewrite V', KV by lia. ring.
  - specialize (V 0%nat ltac:(lia)). cbn [batch_idx Nat.eqb rsum] in V. rewrite V. rewrite !OFF by (lia || lra). cbn [Nat.eqb].
    pose proof (SOL 0%nat ltac:(lia)) as A. pose proof (SOL 1%nat ltac:(lia)) as B. cbn beta in A, B. rewrite KV in A, B by lia.
    cbn [rsum] in A, B. unfold plus_diag in A, B. rewrite !OFF in A, B by (lia || lra). cbn [Nat.eqb] in A, B.
    destruct (LT 1 Rlt_0_1) as [L1 L2].
    assert (G : exp (- (1 / 1) ^ 2 / 2) < exp (- (1 / 2) ^ 2 / 2)) by (apply exp_increasing; lra).
    set (a := exp (- (1 / 1) ^ 2 / 2)) in *. set (a' := exp (- (1 / 2) ^ 2 / 2)) in *.
    assert (X0 : (1 - a) * (al 0%nat - al 1%nat) = 0) by nra.
    assert (al 0%nat = al 1%nat). { destruct (Rmult_integral _ _ X0); lra. }
    assert (S : (1 + a) * al 1%nat = 1) by nra. rewrite H.
    assert (0 < al 1%nat). { apply (Rmult_lt_reg_l (1 + a)); lra. } nra.
Qed.
Print Assumptions C55_follows_higher_kernel_refuted.

(** The hypotheses of the positive theorems are met by the same data. *)
Example C55_sat : exact_solver gauss /\
  pointwise_kernel (feature_count (h_ex_Z 2)) (hk_diffs h_ex_hk (h_ex_cur 1)) (rbf_cov h_ex_def 1 (h_ex_cur 1) []) /\
  dataset (h_ex_Z 2) 2 /\ knots_ok (h_ex_v 2) "length_scale" 2 [] /\
  (exists h, hier_init h_ex_hk (h_ex_cur 1) (h_ex_Z 2) (h_ex_v 2) = Ok h) /\
  (forall i j, kcov (rbf_cov h_ex_def 1 (h_ex_cur 1) []) (h_ex_Z 2) (h_ex_Z 2) i j = kcov (rbf_cov h_ex_def 1 (h_ex_cur 1) []) (h_ex_Z 2) (h_ex_Z 2) j i) /\
  nonsingular 2 (plus_diag (kcov (rbf_cov h_ex_def 1 (h_ex_cur 1) []) (h_ex_Z 2) (h_ex_Z 2)) (fun _ => 1 / 100000)).
Proof.
  split; [exact gauss_exact|]. split; [apply h_ex_pointwise; lra|]. split; [apply h_ex_dataset|]. split; [apply h_ex_knots|].
  split. { destruct (hier_init_ok _ _ _ _ (h_ex_v 2) 2 (h_ex_pointwise 2 1 Rlt_0_1) (h_ex_dataset 2) eq_refl) as (K & EI & _). eexists; exact EI. }
  split; [intros; apply rbf_kcov_sym|]. apply rbf_kcov_ns. lra.
Qed.
