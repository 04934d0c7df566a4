(** Property theorems C110: the dense lensing reference. *)
From Coq Require Import Lia Lra.
From Verif Require Import Base NdModel RSum LinAlgModel LinAlgSpec Gauss NoiseModel TensorModel TensorSpec FlowProofs ShearModel ShearSpec ShearFlowSpec ShearProofs ShearLemmas ShearFlow
  GPSpec BestSpec BenchModel BenchSpec BenchChol BenchProofs DenseShearModel DenseShearSpec DenseShearProofs DenseShearProofs2 DenseShearProofs3.
Local Open Scope R_scope.

(** The nine numbers for two points are the covariances of the lensing observables of an RBF potential. *)
Theorem C110_point_kernel : forall l x y a c, l <> 0 -> (a < 3)%nat -> (c < 3)%nat ->
  shape (shear_kernel (x 0%nat) (x 1%nat) (y 0%nat) (y 1%nat) 1 l) = [3; 3]%nat /\
  at_ (shear_kernel (x 0%nat) (x 1%nat) (y 0%nat) (y 1%nat) 1 l) [a; c] = shear_cov l (obs a) (obs c) x y.
Proof. intros l x y a c Hl Ha Hc. split; [reflexivity|]. rewrite cov_closed by auto. apply kernel_entry; auto. Qed.
Print Assumptions C110_point_kernel.

(** Every entry of the dense matrix is filled (no NaN is left: the result does not depend on [nan]), observable by observable. *)
Theorem C110_matrix : forall nan X1 X2 l n1 n2, l <> 0 -> shape X1 = [n1; 2]%nat -> shape X2 = [n2; 2]%nat ->
  exists V, conventional_shear nan X1 (Some X2) l = Ok V /\ shape V = [3 * n1; 3 * n2]%nat /\
    forall p q, (p < 3 * n1)%nat -> (q < 3 * n2)%nat ->
      at_ V [p; q] = shear_cov l (obs (p / n1)) (obs (q / n2)) (feature X1 (p mod n1)) (feature X2 (q mod n2)).
Proof. exact conventional_shear_ok. Qed.
Print Assumptions C110_matrix.

(** The library's kernel on all pairwise differences, flattened, is the dense matrix. *)
Theorem C110_library_matrix : forall nan X l n, 0 < l -> (0 < n)%nat -> shape X = [n; 2]%nat ->
  exists V diffs Kin flat, conventional_shear nan X None l = Ok V /\
    pairwise_tensor X (arange n) = Ok diffs /\ shear33_call l diffs false None = Ok Kin /\
    reshape (ndmap (Rmult 1) Kin) [3 * n; 3 * n]%nat = Ok flat /\ nd_eq V flat.
Proof.
  intros nan X l n Hl Hn SX. destruct (conventional_shear_ok nan X X l n n ltac:(lra) SX SX) as (V & EV & SV & VV).
  destruct (flat_kernel l X n Hl Hn SX) as (df & Kin & flat & E1 & E2 & E3 & SF & VF).
  exists V, df, Kin, flat. split; [exact EV|]. split; [exact E1|]. split; [exact E2|]. split; [exact E3|].
  split; [congruence|]. rewrite SV. intros idx Hi. apply NdFacts.inb_inv2 in Hi. destruct Hi as (p & q & -> & Hp & Hq).
  rewrite VV, VF by auto. reflexivity.
Qed.
Print Assumptions C110_library_matrix.

(** Points without exactly two coordinates are rejected. *)
Theorem C110_rejects : forall nan X1 X2 l n1 f, shape X1 = [n1; f] -> (0 < n1)%nat -> f <> 2%nat -> conventional_shear nan X1 X2 l = Err ValueError.
Proof.
  intros nan X1 X2 l n1 f S1 Hn Hf. unfold conventional_shear. rewrite S1.
  destruct (Nat.eqb_spec n1 0); [lia|]. destruct (Nat.eqb_spec f 2); [contradiction|]. cbn [negb andb orb].
  destruct (shape match X2 with Some t => t | None => X1 end) as [|? [|? [|? ?]]]; reflexivity.
Qed.
Print Assumptions C110_rejects.

(** The dense mean is kriging from all training observations, with either noise model. *)
Theorem C110_mean : forall ls, exact_solver ls -> forall km nan l noise d test train targets n m,
  0 < l -> (0 < n)%nat -> shape test = [m; 2]%nat -> shape train = [n; 2]%nat -> shape targets = [n; 3]%nat -> stacked_noise noise km n d ->
  (forall p, (p < observed km * n)%nat -> 0 < d p) ->
  exists t, dense_mean ls km nan noise test train targets l = Ok t /\ shape t = [m; 3]%nat /\
    forall r o, (r < m)%nat -> (o < 3)%nat ->
      kriging (observed km * n) (plus_diag (stacked_cov l (unobserved km) n (feature train)) d)
        (stacked_cross l (unobserved km) n (feature train) (feature test r) o)
        (fun p => at_ targets [(p mod n)%nat; (unobserved km + p / n)%nat]) (at_ t [r; o]).
Proof. exact dense_mean_ok. Qed.
Print Assumptions C110_mean.

(** With every training row a neighbour, in whatever order, the library's prediction is the dense one, whichever exact solvers are used. *)
Theorem C110_mean_agrees : forall ls ls', exact_solver ls -> exact_solver ls' -> forall km nan l noise d test train targets ix nn m n b,
  0 < l -> shear_inputs test train targets ix nn m n b n -> all_neighbours nn b n -> stacked_noise noise km n d ->
  (forall p, (p < observed km * n)%nat -> 0 < d p) ->
  exists t t', shear_predict ls km l noise test train targets ix nn = Ok t /\ shape t = [b; 3]%nat /\
    dense_mean ls' km nan noise test train targets l = Ok t' /\ shape t' = [m; 3]%nat /\
    forall x r o, (x < b)%nat -> (o < 3)%nat -> selects m (at_ ix [x]) r -> at_ t [x; o] = at_ t' [r; o].
Proof. exact mean_agrees. Qed.
Print Assumptions C110_mean_agrees.

(** ... and so are the posterior covariances of the three observables at each test point. *)
Theorem C110_variance_agrees : forall ls ls', exact_solver ls -> exact_solver ls' -> forall km nan l noise d test train targets ix nn m n b,
  0 < l -> shear_inputs test train targets ix nn m n b n -> all_neighbours nn b n -> stacked_noise noise km n d ->
  (forall p, (p < observed km * n)%nat -> 0 < d p) ->
  exists t t', shear_variance ls km l noise test train targets ix nn = Ok t /\ shape t = [b; 3; 3]%nat /\
    dense_variance ls' km nan noise test train targets l = Ok t' /\ shape t' = [3 * m; 3 * m]%nat /\
    forall x r o o', (x < b)%nat -> (o < 3)%nat -> (o' < 3)%nat -> selects m (at_ ix [x]) r ->
      at_ t [x; o; o'] = at_ t' [(o * m + r)%nat; (o' * m + r)%nat].
Proof. exact variance_agrees. Qed.
Print Assumptions C110_variance_agrees.

(** The entries for two different test points are not their posterior covariance: [conventional_Kout] puts the prior variance everywhere in a
    block.  Two test points at distance two, any training data. *)
Definition two_points : nd R := mkNd [2; 2]%nat (fun idx => match idx with [1; 0]%nat => 2 | _ => 0 end).
Theorem C110_joint_covariance_refuted : forall ls, exact_solver ls -> forall km nan noise d train targets n,
  (0 < n)%nat -> shape train = [n; 2]%nat -> shape targets = [n; 3]%nat -> stacked_noise noise km n d ->
  (forall p, (p < observed km * n)%nat -> 0 < d p) ->
  exists t w, dense_variance ls km nan noise two_points train targets 1 = Ok t /\
    solves (observed km * n) (plus_diag (stacked_cov 1 (unobserved km) n (feature train)) d) w
      (stacked_cross 1 (unobserved km) n (feature train) (feature two_points 1) 0) /\
    at_ t [0; 1]%nat <> shear_cov 1 Convergence Convergence (feature two_points 0) (feature two_points 1)
      - dot (observed km * n) (stacked_cross 1 (unobserved km) n (feature train) (feature two_points 0) 0) w.
Proof.
  intros ls EX km nan noise d train targets n Hn S2 S3 Hd Pd.
  destruct (dense_variance_ok ls EX km nan 1 noise d two_points train targets n 2 Rlt_0_1 Hn eq_refl S2 S3 Hd Pd) as (t & Et & St & Vt).
  destruct (Vt 0%nat 0%nat 1%nat 0%nat) as (w & W & V); [lia|lia|lia|lia|].
  exists t, w. split; [exact Et|]. split; [exact W|]. cbn [Nat.mul Nat.add] in V. rewrite V. intros E.
  assert (Q : shear_cov 1 (obs 0) (obs 0) (feature two_points 0) (feature two_points 0) = shear_cov 1 (obs 0) (obs 0) (feature two_points 0) (feature two_points 1)).
  { change Convergence with (obs 0) in E. lra. }
  rewrite !cov_closed in Q by lra. unfold cform in Q. cbn [obs] in Q. cbv zeta in Q. unfold kk_fn, feature, two_points in Q. cbn [shape at_] in Q.
  replace (- ((0 - 0) ^ 2 + (0 - 0) ^ 2) / (2 * 1)) with 0 in Q by lra. rewrite exp_0 in Q.
  set (e := exp _) in Q. assert (P : 0 < e) by apply exp_pos. nra.
Qed.
Print Assumptions C110_joint_covariance_refuted.

(** Synthetic targets have the prior covariance of the three observables plus independent noise. *)
Theorem C110_targets : forall ch, exact_cholesky ch -> forall X n l noise outcomes pi e, 0 < l -> 0 < noise -> (0 < n)%nat -> shape X = [n ^ 2; 2]%nat ->
  white outcomes pi (3 * n ^ 2) e ->
  exists y, (forall s, targets_from_GP ch X n l noise (e s) = Ok (y s) /\ shape (y s) = [n ^ 2; 3]%nat) /\
    forall i a j c, (i < n ^ 2)%nat -> (a < 3)%nat -> (j < n ^ 2)%nat -> (c < 3)%nat ->
      expect outcomes pi (fun s => at_ (y s) [i; a] * at_ (y s) [j; c]) = lensing_cov l noise X i a j c.
Proof. exact targets_moments. Qed.
Print Assumptions C110_targets.
Theorem C110_targets_count : forall ch X n l noise e N, 0 < l -> (0 < N)%nat -> shape X = [N; 2]%nat -> N <> (n ^ 2)%nat ->
  targets_from_GP ch X n l noise e = Err ValueError.
Proof. exact targets_wrong_count. Qed.
Print Assumptions C110_targets_count.

Definition ex111_test : nd R := mkNd [4; 2]%nat (fun idx => INR (nth 0 idx O + 2 * nth 1 idx O)).
Definition ex111_train : nd R := mkNd [3; 2]%nat (fun idx => INR (3 * nth 0 idx O) - INR (nth 1 idx O)).
Definition ex111_nn : nd Z := mkNd [4; 3]%nat (fun idx => match idx with [x; i] => Z.of_nat (2 - i) | _ => 0%Z end).
Example C110_sat : exact_solver gauss /\ exact_cholesky chol /\ shear_inputs ex111_test ex111_train (mkNd [3; 3]%nat (fun _ => 1)) (arange 4) ex111_nn 4 3 4 3 /\
  all_neighbours ex111_nn 4 3 /\ stacked_noise (ShearNoise33 1) Full33 3 (shear_noise 1 3) /\ (forall p, (p < 9)%nat -> 0 < shear_noise 1 3 p) /\
  (exists outcomes pi e, white outcomes pi (3 * 2 ^ 2) e) /\ shape ex111_test = [2 ^ 2; 2]%nat.
Proof.
  split; [exact gauss_exact|]. split; [exact chol_exact|]. split.
  { constructor; try reflexivity; try lia.
    - intros x Hx. cbn. unfold out_of_range. lia.
    - intros x i Hx Hi. cbn [at_ ex111_nn]. unfold out_of_range. lia. }
  split.
  { intros x Hx. exists (fun i => (2 - i)%nat). split; [|intros i j Hi Hj; lia].
    intros i Hi. cbn [at_ ex111_nn]. apply selects_of_nat. lia. }
  split; [reflexivity|]. split; [|split; [apply white_exists|reflexivity]].
  intros p _. unfold shear_noise. destruct (p <? 3)%nat; lra.
Qed.
