(** Property theorems C52, C54, C61, C62: the weak-lensing shear kernels. *)
From Coq Require Import Lia Lra.
From Coquelicot Require Import Coquelicot.
From Verif Require Import Base NdModel RSum LinAlgModel LinAlgSpec Gauss GPModel NoiseModel MuyGPSModel GPSpec TensorModel TensorSpec
  KernelSpec KernelModel KernelProofs ShearModel ShearSpec ShearFlowSpec ShearProofs ShearLemmas ShearSmooth ShearGram ShearFlow ShearEdge.
Local Open Scope R_scope.

(** * C52: blocks are the covariances of the lensing observables of an RBF potential *)
(** Entry (a, i, c, j) of the assembled tensor, for every leading shape [pre] and all sizes. *)
Theorem C52_full_kernel : forall l diffs pre n m, l <> 0 -> shape diffs = (pre ++ [n; m; 2%nat])%list ->
  exists full, shear_33_fn l diffs = Ok (squeeze full) /\ shape full = (pre ++ [3; n; 3; m])%nat%list /\
    forall z a i c j x y, (a < 3)%nat -> (c < 3)%nat ->
      (forall f, (f < 2)%nat -> at_ diffs (z ++ [i; j; f]) = x f - y f) ->
      at_ full (z ++ [a; i; c; j]) = shear_cov l (obs a) (obs c) x y.
Proof. exact block33. Qed.
Print Assumptions C52_full_kernel.
Theorem C52_shear_only_kernel : forall l diffs pre n m, l <> 0 -> shape diffs = (pre ++ [n; m; 2%nat])%list ->
  exists full, shear_Kin23_fn l diffs = Ok (squeeze full) /\ shape full = (pre ++ [2; n; 2; m])%nat%list /\
    forall z a i c j x y, (a < 2)%nat -> (c < 2)%nat ->
      (forall f, (f < 2)%nat -> at_ diffs (z ++ [i; j; f]) = x f - y f) ->
      at_ full (z ++ [a; i; c; j]) = shear_cov l (obs (S a)) (obs (S c)) x y.
Proof. exact blockKin23. Qed.
Print Assumptions C52_shear_only_kernel.
Theorem C52_shear_cross_kernel : forall l diffs pre n m, l <> 0 -> shape diffs = (pre ++ [n; m; 2%nat])%list ->
  exists full, shear_Kcross23_fn l diffs = Ok (squeeze full) /\ shape full = (pre ++ [2; n; 3; m])%nat%list /\
    forall z a i c j x y, (a < 2)%nat -> (c < 3)%nat ->
      (forall f, (f < 2)%nat -> at_ diffs (z ++ [i; j; f]) = x f - y f) ->
      at_ full (z ++ [a; i; c; j]) = shear_cov l (obs (S a)) (obs c) x y.
Proof. exact blockKcross23. Qed.
Print Assumptions C52_shear_cross_kernel.

(** The specification's derivatives exist everywhere. *)
Theorem C52_derivatives_exist : forall l, l <> 0 ->
  differentiable4 (rbf2 l) /\ differentiable4 (dy1 (rbf2 l)) /\ differentiable4 (dy2 (rbf2 l)) /\
  forall o, differentiable4 (at_second o (rbf2 l)) /\ differentiable4 (dx1 (at_second o (rbf2 l))) /\
            differentiable4 (dx2 (at_second o (rbf2 l))).
Proof. exact derivatives_exist. Qed.
Print Assumptions C52_derivatives_exist.

Theorem C52_symmetric : forall l o o' x y, l <> 0 -> shear_cov l o o' x y = shear_cov l o' o y x.
Proof. exact cov_sym_obs. Qed.
Print Assumptions C52_symmetric.

(** The stacked covariance of any points and any observables is positive semidefinite. *)
Theorem C52_positive_semidefinite : forall l s k pt n, 0 < l -> psd n (stacked_cov l s k pt).
Proof. exact stacked_psd. Qed.
Print Assumptions C52_positive_semidefinite.

(** The prior covariance a model reports is the covariance at coincident points. *)
Theorem C52_prior : forall km l, 0 < l ->
  exists K, (match km with Full33 => shear33_Kout l None | Two23 => shear23_Kout l None end) = Ok K /\
    shape K = [3; 3]%nat /\ forall o o' x, (o < 3)%nat -> (o' < 3)%nat -> at_ K [o; o'] = shear_cov l (obs o) (obs o') x x.
Proof. exact kout_ok. Qed.
Print Assumptions C52_prior.

(** The hyperparameter is the square of the length scale of the library's RBF kernel ... *)
Theorem C52_squared_length_scale : forall lam x1 x2 y1 y2, lam <> 0 ->
  rbf2 (lam ^ 2) x1 x2 y1 y2 = rbf_entry (scale_entry F2 lam ((x1 - y1) ^ 2 + (x2 - y2) ^ 2)).
Proof. exact rbf2_is_rbf. Qed.
Print Assumptions C52_squared_length_scale.
(** ... so the same length_scale in both does not give derivatives of the same kernel:
    with length_scale 2 the convergence variance is 1/2, while that of the RBF potential with
    length scale 2 (squared: 4) is 1/8. *)
Theorem C52_same_length_scale_refuted : forall x,
  shear_cov 2 Convergence Convergence x x = 1 / 2 /\ shear_cov (2 ^ 2) Convergence Convergence x x = 1 / 8.
Proof.
  intros x. destruct (prior_value 2 x) as (P & _); [lra|]. destruct (prior_value (2 ^ 2) x) as (Q & _); [lra|].
  rewrite P, Q. split; lra.
Qed.
Print Assumptions C52_same_length_scale_refuted.

(** A length_scale keyword (the optimizer's candidate) replaces the current value. *)
Theorem C52_candidate_length_scale : forall cur l diffs adj fk,
  shear33_call cur diffs adj (Some l) = shear33_call l diffs adj None /\
  shear23_call cur diffs adj fk (Some l) = shear23_call l diffs adj fk None.
Proof. intros. split; reflexivity. Qed.
Print Assumptions C52_candidate_length_scale.

(** ... so a candidate on a pairwise difference tensor gives its own covariances. *)
Theorem C52_candidate_entries : forall cur l diffs b n, l <> 0 -> shape diffs = [b; n; n; 2]%nat -> b <> 1%nat -> n <> 1%nat ->
  exists K, shear33_call cur diffs true (Some l) = Ok K /\ shape K = [b; 3; n; 3; n]%nat /\
    forall x a i c j p q, (x < b)%nat -> (a < 3)%nat -> (i < n)%nat -> (c < 3)%nat -> (j < n)%nat ->
      (forall f, (f < 2)%nat -> at_ diffs [x; i; j; f] = p f - q f) -> at_ K [x; a; i; c; j] = shear_cov l (obs a) (obs c) p q.
Proof.
  intros cur l diffs b n Hl Sd Hb Hn. rewrite (proj1 (C52_candidate_length_scale cur l diffs true false)).
  destruct (pairwise_cov Full33 l diffs b n Hl Sd Hb Hn) as (K & E & S & V).
  exists K. split; [exact E|]. split; [exact S|]. intros x a i c j p q Hx Ha Hi Hc Hj H. exact (V x a i c j p q Hx Ha Hi Hc Hj H).
Qed.
Print Assumptions C52_candidate_entries.

(** Fewer than two features raise; extra features are not rejected. *)
Theorem C52_one_feature_rejected : forall l diffs pre n m d, shape diffs = (pre ++ [n; m; d])%list -> (d < 2)%nat ->
  shear_33_fn l diffs = Err IndexError /\ shear_Kin23_fn l diffs = Err IndexError /\ shear_Kcross23_fn l diffs = Err IndexError.
Proof. exact features_short. Qed.
Print Assumptions C52_one_feature_rejected.

Example C52_sat : 2 <> 0 /\ shape (mkNd [4; 3; 3; 2]%nat (fun idx => INR (nth 1 idx O) - INR (nth 2 idx O))) = ([4] ++ [3; 3; 2])%nat%list /\
  forall f, (f < 2)%nat -> at_ (mkNd [4; 3; 3; 2]%nat (fun idx => INR (nth 1 idx O) - INR (nth 2 idx O))) ([0] ++ [1; 2; f])%nat
    = (fun _ => 1) f - (fun _ => 2) f.
Proof. split; [lra|]. split; [reflexivity|]. intros f _. cbn. lra. Qed.

(** * C54: recognising crosswise and pairwise difference tensors *)
Theorem C54_pairwise : forall km cur diffs b n, cur <> 0 -> shape diffs = [b; n; n; 2]%nat -> b <> 1%nat -> n <> 1%nat ->
  exists K, shear_call km cur diffs = Ok K /\ shape K = [b; observed km; n; observed km; n]%nat /\
    forall x a i c j p q, (x < b)%nat -> (a < observed km)%nat -> (i < n)%nat -> (c < observed km)%nat -> (j < n)%nat ->
      (forall f, (f < 2)%nat -> at_ diffs [x; i; j; f] = p f - q f) ->
      at_ K [x; a; i; c; j] = shear_cov cur (obs (unobserved km + a)) (obs (unobserved km + c)) p q.
Proof. exact pairwise_cov. Qed.
Print Assumptions C54_pairwise.
Theorem C54_crosswise_partial : forall km cur diffs b n, cur <> 0 -> shape diffs = [b; n; 2]%nat -> b <> 1%nat -> n <> 1%nat -> b <> n ->
  exists K, shear_call km cur diffs = Ok K /\ shape K = [b; observed km; n; 3]%nat /\
    forall x a i c p q, (x < b)%nat -> (a < observed km)%nat -> (i < n)%nat -> (c < 3)%nat ->
      (forall f, (f < 2)%nat -> at_ diffs [x; i; f] = p f - q f) ->
      at_ K [x; a; i; c] = shear_cov cur (obs (unobserved km + a)) (obs c) p q.
Proof. exact crosswise_cov. Qed.
Print Assumptions C54_crosswise_partial.

(** As many test points as neighbours: the tensor is mistaken for a pairwise one ... *)
Theorem C54_square_refuted : forall km cur diffs n, shape diffs = [n; n; 2]%nat -> n <> 1%nat ->
  exists K, shear_call km cur diffs = Ok K /\ shape K = [observed km; n; observed km; n]%nat.
Proof. intros km cur diffs n H Hn. destruct (confused_entries km cur diffs n H Hn) as (K & E & S & _). exists K. auto. Qed.
Print Assumptions C54_square_refuted.
(** ... and prediction raises, ... *)
Theorem C54_square_prediction_raises : forall ls km l noise d test train targets ix nn m n k,
  0 < l -> (2 <= k)%nat -> k <> observed km ->
  shape test = [m; 2]%nat -> shape train = [n; 2]%nat -> shape targets = [n; 3]%nat -> shape ix = [k] -> shape nn = [k; k] ->
  (forall x, (x < k)%nat -> ~ out_of_range m (at_ ix [x])) ->
  (forall x i, (x < k)%nat -> (i < k)%nat -> ~ out_of_range n (at_ nn [x; i])) ->
  stacked_noise noise km k d ->
  shear_predict ls km l noise test train targets ix nn = Err ValueError.
Proof. exact square_rejected. Qed.
Print Assumptions C54_square_prediction_raises.
(** ... except with three test points of three neighbours, where the result is silently wrong. *)
Theorem C54_three_by_three_wrong_refuted : forall ls, exact_solver ls -> forall l v, 0 < l -> 0 < v -> exists targets t,
  shape targets = [3; 3]%nat /\
  shear_predict ls Full33 l (HomoscedasticNoise v) Zf Zf targets Zix Znn = Ok t /\
  ~ kriging 9 (plus_diag (stacked_cov l 0 3 (fun i => feature Zf i)) (flat_noise v))
      (stacked_cross l 0 3 (fun i => feature Zf i) (feature Zf 0) 0)
      (fun p => at_ targets [(p mod 3)%nat; (p / 3)%nat]) (at_ t [0; 0]%nat).
Proof. exact square_wrong. Qed.
Print Assumptions C54_three_by_three_wrong_refuted.

(** A single test point loses its batch axis, and every noise addition then raises. *)
Theorem C54_single_point_refuted : forall cur diffs n v, shape diffs = [1; n; n; 2]%nat -> n <> 1%nat ->
  exists K, shear33_call cur diffs true None = Ok K /\ shape K = [3; n; 3; n]%nat /\
    homoscedastic_perturb K v = Err ValueError /\ shear_perturb33 K v = Err ValueError.
Proof. exact single_row. Qed.
Print Assumptions C54_single_point_refuted.

(** The caller can always choose instead of relying on the shape: force_Kcross gives the (2, n, 3, m) cross-covariances
    whatever the shape, square ones included, and adjust=False the same-observable blocks of the tensor as given. *)
Theorem C54_forced_cross : forall cur kw diffs adj pre n m, pick cur kw <> 0 -> shape diffs = (pre ++ [n; m; 2%nat])%list ->
  exists full, shear23_call cur diffs adj true kw = Ok (squeeze full) /\ shape full = (pre ++ [2; n; 3; m])%nat%list /\
    forall z a i c j x y, (a < 2)%nat -> (c < 3)%nat ->
      (forall f, (f < 2)%nat -> at_ diffs (z ++ [i; j; f]) = x f - y f) ->
      at_ full (z ++ [a; i; c; j]) = shear_cov (pick cur kw) (obs (S a)) (obs c) x y.
Proof. intros cur kw diffs adj. exact (blockKcross23 (pick cur kw) diffs). Qed.
Print Assumptions C54_forced_cross.
Theorem C54_unadjusted : forall cur kw diffs pre n m, pick cur kw <> 0 -> shape diffs = (pre ++ [n; m; 2%nat])%list ->
  (exists full, shear33_call cur diffs false kw = Ok (squeeze full) /\ shape full = (pre ++ [3; n; 3; m])%nat%list /\
    forall z a i c j x y, (a < 3)%nat -> (c < 3)%nat ->
      (forall f, (f < 2)%nat -> at_ diffs (z ++ [i; j; f]) = x f - y f) ->
      at_ full (z ++ [a; i; c; j]) = shear_cov (pick cur kw) (obs a) (obs c) x y) /\
  (exists full, shear23_call cur diffs false false kw = Ok (squeeze full) /\ shape full = (pre ++ [2; n; 2; m])%nat%list /\
    forall z a i c j x y, (a < 2)%nat -> (c < 2)%nat ->
      (forall f, (f < 2)%nat -> at_ diffs (z ++ [i; j; f]) = x f - y f) ->
      at_ full (z ++ [a; i; c; j]) = shear_cov (pick cur kw) (obs (S a)) (obs (S c)) x y).
Proof.
  intros cur kw diffs pre n m H Sd. split.
  - exact (block33 (pick cur kw) diffs pre n m H Sd).
  - exact (blockKin23 (pick cur kw) diffs pre n m H Sd).
Qed.
Print Assumptions C54_unadjusted.

Theorem C54_constructor : forall c, shear_ctor c = Ok tt <-> c = CDifferenceIsotropy.
Proof. intros []; cbn; split; congruence. Qed.
Print Assumptions C54_constructor.

Example C54_sat : 2 <> 0 /\ shape (mkNd [4; 3; 3; 2]%nat (fun _ => 0)) = [4; 3; 3; 2]%nat /\
  shape (mkNd [4; 3; 2]%nat (fun _ => 0)) = [4; 3; 2]%nat /\ shape (mkNd [4; 4; 2]%nat (fun _ => 0)) = [4; 4; 2]%nat /\
  shape (mkNd [1; 3; 3; 2]%nat (fun _ => 0)) = [1; 3; 3; 2]%nat /\ exact_solver gauss /\
  stacked_noise (HomoscedasticNoise 1) Two23 4 (flat_noise 1).
Proof. repeat split; auto; try lra; apply gauss_exact. Qed.

(** * C61: prediction with shear models is co-kriging of the observables *)
Theorem C61_prediction : forall ls, exact_solver ls -> forall km l noise d test train targets ix nn m n b k,
  0 < l -> shear_inputs test train targets ix nn m n b k -> stacked_noise noise km k d ->
  (forall p, (p < observed km * k)%nat -> 0 < d p) ->
  exists t, shear_predict ls km l noise test train targets ix nn = Ok t /\ shape t = [b; 3]%nat /\
    forall x r rows o, (x < b)%nat -> (o < 3)%nat -> selects m (at_ ix [x]) r ->
      (forall i, (i < k)%nat -> selects n (at_ nn [x; i]) (rows i)) ->
      let pt := fun i => feature train (rows i) in
      kriging (observed km * k) (plus_diag (stacked_cov l (unobserved km) k pt) d)
        (stacked_cross l (unobserved km) k pt (feature test r) o)
        (fun p => at_ targets [rows (p mod k)%nat; (unobserved km + p / k)%nat]) (at_ t [x; o]).
Proof. exact shear_predict_ok. Qed.
Print Assumptions C61_prediction.
Theorem C61_variance : forall ls, exact_solver ls -> forall km l noise d test train targets ix nn m n b k,
  0 < l -> shear_inputs test train targets ix nn m n b k -> stacked_noise noise km k d ->
  (forall p, (p < observed km * k)%nat -> 0 < d p) ->
  exists t, shear_variance ls km l noise test train targets ix nn = Ok t /\ shape t = [b; 3; 3]%nat /\
    forall x r rows o, (x < b)%nat -> (o < 3)%nat -> selects m (at_ ix [x]) r ->
      (forall i, (i < k)%nat -> selects n (at_ nn [x; i]) (rows i)) ->
      let pt := fun i => feature train (rows i) in
      (exists w, solves (observed km * k) (plus_diag (stacked_cov l (unobserved km) k pt) d) w
            (stacked_cross l (unobserved km) k pt (feature test r) o) /\
        forall o', (o' < 3)%nat -> at_ t [x; o; o'] =
          shear_cov l (obs o) (obs o') (feature test r) (feature test r)
          - dot (observed km * k) w (stacked_cross l (unobserved km) k pt (feature test r) o')) /\
      0 <= at_ t [x; o; o] <= shear_cov l (obs o) (obs o) (feature test r) (feature test r).
Proof. exact shear_variance_ok. Qed.
Print Assumptions C61_variance.
Example C61_sat : exact_solver gauss /\ shear_inputs exFeat exFeat exTgt exIx exNn 4 4 4 3 /\
  stacked_noise (ShearNoise33 1) Full33 3 (shear_noise 1 3) /\ (forall p, (p < 9)%nat -> 0 < shear_noise 1 3 p) /\
  stacked_noise (HomoscedasticNoise 2) Two23 3 (flat_noise 2).
Proof.
  split; [exact gauss_exact|]. split; [exact ex_inputs|]. split; [reflexivity|]. split; [|reflexivity].
  intros p _. unfold shear_noise. destruct (p <? 3)%nat; lra.
Qed.

(** * C62: the prior variance used while optimizing follows the candidate hyperparameters *)
(** RBF and Matern kernels: the prior variance is 1, which is the kernel at distance zero for every candidate. *)
Theorem C62_rbf_matern : forall m lam, at_ kernel_Kout [] = rbf_entry (scale_entry m lam 0) /\
  at_ kernel_Kout [] = m05_entry (scale_entry m lam 0) /\ at_ kernel_Kout [] = m15_entry (scale_entry m lam 0) /\
  at_ kernel_Kout [] = m25_entry (scale_entry m lam 0) /\ at_ kernel_Kout [] = minf_entry (scale_entry m lam 0).
Proof.
  intros m lam. replace (scale_entry m lam 0) with 0 by (destruct m; unfold scale_entry, Rdiv; ring).
  unfold kernel_Kout, rbf_entry, m05_entry, m15_entry, m25_entry, minf_entry. cbn [at_ squeeze squeeze_shape]. cbv zeta.
  replace (- 0 / 2) with 0 by lra. replace (- 0) with 0 by ring. replace (- 0 ^ 2 / 2) with 0 by lra.
  replace (- (0 * sqrt 3)) with 0 by ring. replace (- (0 * sqrt 5)) with 0 by ring. rewrite exp_0.
  repeat split; field.
Qed.
Print Assumptions C62_rbf_matern.
(** Shear kernels: the prior stays that of the length scale the model was made with, so the
    variance seen by the optimizer is off by the difference of the two priors. *)
Theorem C62_shear_refuted : forall ls, exact_solver ls -> forall km cur cand noise d test train targets ix nn m n b k,
  0 < cur -> 0 < cand -> shear_inputs test train targets ix nn m n b k -> stacked_noise noise km k d ->
  (forall p, (p < observed km * k)%nat -> 0 < d p) ->
  exists t t', shear_variance ls km cand noise test train targets ix nn = Ok t /\
    shear_opt_variance ls km cur cand noise test train targets ix nn = Ok t' /\
    forall x o, (x < b)%nat -> (o < 3)%nat ->
      at_ t' [x; o; o] = at_ t [x; o; o] + (if (o =? 0)%nat then 2 else 1) * (1 / cur ^ 2 - 1 / cand ^ 2).
Proof. exact stale_variance. Qed.
Print Assumptions C62_shear_refuted.
Example C62_sat : exact_solver gauss /\ 0 < 1 /\ 0 < 2 /\ 1 / 1 ^ 2 - 1 / 2 ^ 2 <> 0 /\
  shear_inputs exFeat exFeat exTgt exIx exNn 4 4 4 3 /\ stacked_noise (HomoscedasticNoise 2) Full33 3 (flat_noise 2).
Proof. split; [exact gauss_exact|]. repeat split; try lra; try exact ex_inputs; apply ex_inputs. Qed.
