(** Property theorems C79 (likelihood losses of matrix-shaped responses), C80 (regression and classification end to end),
    C81 (training order) and C82 (interpolation of the training data). *)
From Coq Require Import Lia Lra.
From Verif Require Import Base BaseFacts NdModel NdFacts RSum HyperModel NamedModel NamedSpec LinAlgModel LinAlgSpec LinAlgFacts Gauss
  GPModel NoiseModel MuyGPSModel GPSpec GPTheorems TensorModel TensorSpec KernelModel KernelSpec KernelCases
  NeighborsModel NeighborsSpec NeighborsProofs BatchProofs FlowModel FlowSpec FlowProofs PointwiseSpec LibSpec LibProofs
  MultiModel DriverModel DriverProofs ClassifyModel ClassifySpec LossModel LossSpec HyperLemmas ChassisModel ChassisProps MatLossProofs
  WorkModel WorkSpec WorkProofs WorkLemmas.
Local Open Scope R_scope.
Local Open Scope string_scope.

(** * C79 *)
(** The documented value of a likelihood loss on (b, r) responses with one variance per batch element: every residual is
    scaled by the variance of its own batch element. *)
Definition documented_lool (p t v : nd R) (b r : nat) (s : R) : R :=
  rsum b (fun i => rsum r (fun j => lool_entry (at_ p [i; j] - at_ t [i; j]) (s * at_ v [i]))).
Definition documented_looph (d : R) (p t v : nd R) (b r : nat) (s : R) : R :=
  rsum b (fun i => rsum r (fun j => looph_entry d (at_ t [i; j] - at_ p [i; j]) (s * at_ v [i]))).

(** It is what a batch of one element gets. *)
Theorem C79_single_element_partial : forall ls sld p t v r s d,
  shape p = [1%nat; r] -> shape t = [1%nat; r] -> shape v = [1%nat] ->
  lool_fn ls sld p t v s = Ok (documented_lool p t v 1 r s) /\ looph_fn p t v s d = Ok (documented_looph d p t v 1 r s).
Proof. exact lool_one. Qed.
Print Assumptions C79_single_element_partial.

(** Column responses (b, 1), as the example drivers pass them: every residual is paired with every variance of the batch. *)
Theorem C79_column_refuted : forall ls sld p t v b s d,
  shape p = [b; 1%nat] -> shape t = [b; 1%nat] -> shape v = [b] ->
  lool_fn ls sld p t v s =
    Ok (rsum b (fun i => rsum b (fun j => lool_entry (at_ p [i; O] - at_ t [i; O]) (s * at_ v [j])))) /\
  looph_fn p t v s d =
    Ok (rsum b (fun i => rsum b (fun j => looph_entry d (at_ t [i; O] - at_ p [i; O]) (s * at_ v [j])))).
Proof.
  intros ls sld p t v b s d Sp St Sv. split; [apply lool_column; auto|apply looph_column; auto].
Qed.
Print Assumptions C79_column_refuted.

(** With equal variances that is b times the documented value ... *)
Theorem C79_column_equal_variances : forall ls sld p t v b s w,
  shape p = [b; 1%nat] -> shape t = [b; 1%nat] -> shape v = [b] -> (forall j, (j < b)%nat -> at_ v [j] = w) ->
  lool_fn ls sld p t v s = Ok (INR b * documented_lool p t v b 1 s).
Proof.
  intros ls sld p t v b s w Sp St Sv Hw. rewrite (lool_column_equal ls sld p t v b s w) by auto. f_equal. f_equal.
  unfold documented_lool. apply rsum_ext. intros i Hi. cbn [rsum]. ring.
Qed.
Print Assumptions C79_column_equal_variances.

(** ... but in general it orders two candidate models the other way round. *)
Theorem C79_ranking_refuted : forall ls sld, exists pa va pb vb t A B,
  shape pa = [2; 1]%nat /\ shape pb = [2; 1]%nat /\ shape t = [2; 1]%nat /\ shape va = [2%nat] /\ shape vb = [2%nat] /\
  (forall j, (j < 2)%nat -> 0 < at_ va [j] /\ 0 < at_ vb [j]) /\
  lool_fn ls sld pa t va 1 = Ok A /\ lool_fn ls sld pb t vb 1 = Ok B /\
  documented_lool pa t va 2 1 1 < documented_lool pb t vb 2 1 1 /\ B < A.
Proof.
  intros ls sld. destruct (lool_ranking ls sld) as (pa & va & pb & vb & t & A & B & S1 & S2 & S3 & S4 & S5 & P & EA & EB & L & R).
  exists pa, va, pb, vb, t, A, B. do 5 (split; [assumption|]). split; [exact P|]. split; [exact EA|]. split; [exact EB|].
  split; [|exact R]. unfold documented_lool. cbn [rsum] in L |- *. lra.
Qed.
Print Assumptions C79_ranking_refuted.

(** Two or more responses: an error unless their number equals the batch size ... *)
Theorem C79_many_responses_refuted : forall ls sld p t v b r s d,
  shape p = [b; r] -> shape t = [b; r] -> shape v = [b] -> (2 <= b)%nat -> (2 <= r)%nat -> r <> b ->
  lool_fn ls sld p t v s = Err ValueError /\ looph_fn p t v s d = Err ValueError.
Proof. intros ls sld p t v b r s d Sp St Sv Hb Hr Hrb. apply (lool_mat_err ls sld p t v b r b s d); auto; lia. Qed.
Print Assumptions C79_many_responses_refuted.

(** ... in which case response [j] is scaled by the variance of batch element [j]. *)
Theorem C79_square_refuted : forall ls sld p t v b s,
  shape p = [b; b] -> shape t = [b; b] -> shape v = [b] ->
  lool_fn ls sld p t v s =
    Ok (rsum b (fun i => rsum b (fun j => lool_entry (at_ p [i; j] - at_ t [i; j]) (s * at_ v [j])))).
Proof. exact lool_square. Qed.
Print Assumptions C79_square_refuted.

(** Variances with a response axis, as documented, always raise. *)
Theorem C79_response_variances_refuted : forall ls sld p t v b r s d,
  shape p = [b; r] -> shape t = [b; r] -> shape v = [b; r] ->
  (exists e, lool_fn ls sld p t v s = Err e) /\ looph_fn p t v s d = Err ValueError.
Proof. exact lool_mat_var. Qed.
Print Assumptions C79_response_variances_refuted.

(** So the objective handed to the optimizer cannot be evaluated for two or more responses ... *)
Theorem C79_objective_raises_refuted : forall ls, exact_solver ls -> forall sld eps gamma kv s F l draws P C T B kw Kin Kcross b n r,
  l = Lool \/ l = Looph ->
  call_kernel gamma kv s F P kw = Ok Kin -> call_kernel gamma kv s F C kw = Ok Kcross ->
  noise_fits (gp_noise (gp_bound s F)) b n ->
  shape Kin = [b; n; n] -> shape Kcross = [b; n] -> shape T = [b; n; r] -> shape B = [b; r] -> r <> n ->
  (2 <= b)%nat -> (2 <= r)%nat -> b <> r ->
  exists e, obj_fn ls sld eps gamma kv s F l [] None draws P C T B kw = Err e.
Proof. exact obj_many. Qed.
Print Assumptions C79_objective_raises_refuted.

(** ... and for column targets (one submodel of a multivariate model) it is the all-pairs value. *)
Theorem C79_objective_column_refuted : forall ls, exact_solver ls -> forall sld eps gamma kv s F draws P C T B kw Kin Kcross b n v,
  call_kernel gamma kv s F P kw = Ok Kin -> call_kernel gamma kv s F C kw = Ok Kcross ->
  noise_fits (gp_noise (gp_bound s F)) b n ->
  shape Kin = [b; n; n] -> shape Kcross = [b; n] -> shape T = [b; n; 1%nat] -> shape B = [b; 1%nat] -> n <> 1%nat ->
  obj_fn ls sld eps gamma kv s F Lool [] None draws P C T B kw = Ok v ->
  exists p var sc,
    gp_posterior_mean ls (gp_bound s F) Kin Kcross T (dget kw "noise") = Ok p /\
    gp_opt_variance ls (gp_bound s F) Kin Kcross (dget kw "noise") = Ok var /\
    scale_value ls s F draws Kin T = Ok sc /\
    shape p = [b; 1%nat] /\ shape var = [b] /\
    v = - rsum b (fun i => rsum b (fun j => lool_entry (at_ p [i; O] - at_ B [i; O]) (sc * at_ var [j]))).
Proof. exact obj_column. Qed.
Print Assumptions C79_objective_column_refuted.

(** * C80 *)
(** Regression end to end.  With the exact Euclidean lookup, a library kernel and positive noise (or nonnegative noise and distinct
    training rows), predicting never fails; every test row is predicted from its n nearest training rows: the mean of every response is
    the kriging predictor under the documented covariance, the variance the scaled Schur complement, between 0 and the variance scale.
    Targets of shape (N,) and (N, r) with r <> n. *)
Theorem C80_regress_any : forall gamma kv ls, exact_solver ls -> forall knn hnsw dist, sklearn_ok knn dist ->
  forall en method kw w g K cur test train targets N M n ex,
  lower method = "exact" -> euclidean_kw kw -> nn_init en (rows_of train) n method kw = Ok w -> (0 < n <= N /\ 0 < M)%nat ->
  dataset test M -> dataset train N -> ndim test = ndim train -> feature_count test = feature_count train ->
  lk_ok K (feature_count train) cur [] -> shape targets = N :: ex -> no_coincidence ex [n] ->
  shape (gp_Kout g) = [] -> at_ (gp_Kout g) [] = 1 -> 0 <= gp_var_scale g ->
  noise_fits (gp_noise g) M n -> sound_noise (gp_noise g) train N M n ->
  exists mean var q,
    regress_any ls knn hnsw (Univariate (lib_model gamma kv g K cur)) test train w targets = Ok (mean, var) /\
    shape mean = M :: ex /\ shape var = [M] /\
    forall x, (x < M)%nat ->
      nearest_rows test train N x n (q x) /\
      (forall e, inb ex e ->
        kriging n (nbr_matrix (lk_cov gamma kv K (feature_count train) cur []) (gp_noise g) train q x)
          (fun j => kcov (lk_cov gamma kv K (feature_count train) cur []) test train x (q x j))
          (fun j => at_ targets (q x j :: e)) (at_ mean (x :: e))) /\
      (exists wv, solves n (nbr_matrix (lk_cov gamma kv K (feature_count train) cur []) (gp_noise g) train q x) wv
          (fun j => kcov (lk_cov gamma kv K (feature_count train) cur []) test train x (q x j)) /\
        at_ var [x] = gp_var_scale g *
          (1 - dot n wv (fun j => kcov (lk_cov gamma kv K (feature_count train) cur []) test train x (q x j)))) /\
      0 <= at_ var [x] <= gp_var_scale g.
Proof.
  intros gamma kv ls EX knn hnsw dist Hsk en method kw w g K cur test train targets N M n ex Hm He Hi Hn D1 D2 ND FC OK HT NC SK K1 SC NF SN.
  destruct (regress_any_nbr gamma kv ls EX knn hnsw dist Hsk en method kw w g K cur [] test train targets N M n ex)
    as (mean & var & E & S1 & S2 & _ & V); auto.
  exists mean, var, (nbr knn hnsw w test). auto.
Qed.
Print Assumptions C80_regress_any.

(** The prediction for a point does not depend on which other points are predicted with it. *)
Theorem C80_rowwise : forall gamma kv ls, exact_solver ls -> forall knn hnsw dist, sklearn_ok knn dist ->
  forall en method kw w g K cur test test' train targets N M M' n ex,
  lower method = "exact" -> euclidean_kw kw -> nn_init en (rows_of train) n method kw = Ok w -> (0 < n <= N /\ 0 < M /\ 0 < M')%nat ->
  dataset test M -> dataset test' M' -> dataset train N -> ndim test = ndim train -> ndim test' = ndim train ->
  feature_count test = feature_count train -> feature_count test' = feature_count train ->
  lk_ok K (feature_count train) cur [] -> shape targets = N :: ex -> no_coincidence ex [n] ->
  shape (gp_Kout g) = [] -> at_ (gp_Kout g) [] = 1 -> 0 <= gp_var_scale g ->
  uniform_noise (gp_noise g) -> sound_noise (gp_noise g) train N (M + M') n ->
  exists mean var mean' var',
    regress_any ls knn hnsw (Univariate (lib_model gamma kv g K cur)) test train w targets = Ok (mean, var) /\
    regress_any ls knn hnsw (Univariate (lib_model gamma kv g K cur)) test' train w targets = Ok (mean', var') /\
    forall x y, (x < M)%nat -> (y < M')%nat -> same_row test test' x y ->
      at_ var [x] = at_ var' [y] /\ forall e, inb ex e -> at_ mean (x :: e) = at_ mean' (y :: e).
Proof.
  intros gamma kv ls EX knn hnsw dist Hsk en method kw w g K cur test test' train targets N M M' n ex.
  exact (regress_any_rowwise gamma kv ls EX knn hnsw dist Hsk en method kw w g K cur [] test test' train targets N M M' n ex).
Qed.
Print Assumptions C80_rowwise.

(** A multivariate model: response [i] is predicted by submodel [i] from the same neighbours (the variance carries the submodel's
    scale twice, C44). *)
Theorem C80_multivariate_partial : forall gamma kv ls, exact_solver ls -> forall knn hnsw dist, sklearn_ok knn dist ->
  forall en method kw w (ms : list (gp * libkernel * (nat -> R))) test train targets F N M n r,
  lower method = "exact" -> euclidean_kw kw -> nn_init en (rows_of train) n method kw = Ok w -> (0 < n <= N /\ 0 < M)%nat -> n <> 1%nat ->
  shape test = [M; F] -> shape train = [N; F] -> shape targets = [N; r] -> ms <> [] -> (List.length ms <= r)%nat ->
  (forall g K cur, In (g, K, cur) ms -> lk_ok K F cur [] /\ shape (gp_Kout g) = [] /\ at_ (gp_Kout g) [] = 1 /\
     noise_fits (gp_noise g) M n /\ sound_noise (gp_noise g) train N M n) ->
  exists mean var q,
    regress_any ls knn hnsw (Multivariate (map (fun e => lib_model gamma kv (fst (fst e)) (snd (fst e)) (snd e)) ms)) test train w targets
      = Ok (mean, var) /\
    shape mean = [M; r] /\ shape var = [M; List.length ms] /\
    (forall x, (x < M)%nat -> nearest_rows test train N x n (q x)) /\
    forall i g K cur x, nth_error ms i = Some (g, K, cur) -> (x < M)%nat ->
      kriging n (nbr_matrix (lk_cov gamma kv K F cur []) (gp_noise g) train q x)
        (fun j => kcov (lk_cov gamma kv K F cur []) test train x (q x j))
        (fun j => at_ targets [q x j; i]) (at_ mean [x; i]) /\
      exists wv, solves n (nbr_matrix (lk_cov gamma kv K F cur []) (gp_noise g) train q x) wv
          (fun j => kcov (lk_cov gamma kv K F cur []) test train x (q x j)) /\
        at_ var [x; i] = gp_scale g * (gp_var_scale g *
          (1 - dot n wv (fun j => kcov (lk_cov gamma kv K F cur []) test train x (q x j)))).
Proof. exact regress_any_multi. Qed.
Print Assumptions C80_multivariate_partial.

(** Two-class classification end to end: a test row whose n nearest training rows share a class gets that class; every other row gets
    the kriging prediction of its neighbours' class labels. *)
Theorem C80_classify_any : forall gamma kv ls, exact_solver ls -> forall knn hnsw dist, sklearn_ok knn dist ->
  forall en method kw w g K cur test train labels N M n lo hi cl,
  lower method = "exact" -> euclidean_kw kw -> nn_init en (rows_of train) n method kw = Ok w -> (0 < n <= N /\ 0 < M)%nat -> n <> 2%nat ->
  dataset test M -> dataset train N -> ndim test = ndim train -> feature_count test = feature_count train ->
  lk_ok K (feature_count train) cur [] -> uniform_noise (gp_noise g) -> sound_noise (gp_noise g) train N M n ->
  one_hot labels N 2 lo hi cl ->
  exists out q, work_classify_any ls knn hnsw (Univariate (lib_model gamma kv g K cur)) test train w labels = Ok out /\
    shape out = [M; 2%nat] /\
    forall x c, (x < M)%nat -> (c < 2)%nat ->
      nearest_rows test train N x n (q x) /\
      ((forall j, (j < n)%nat -> cl (q x j) = cl (q x O)) -> at_ out [x; c] = if (c =? cl (q x O))%nat then hi else lo) /\
      ((exists j, (j < n)%nat /\ cl (q x j) <> cl (q x O)) ->
         kriging n (nbr_matrix (lk_cov gamma kv K (feature_count train) cur []) (gp_noise g) train q x)
           (fun j => kcov (lk_cov gamma kv K (feature_count train) cur []) test train x (q x j))
           (fun j => if (c =? cl (q x j))%nat then hi else lo) (at_ out [x; c])).
Proof. exact work_classify. Qed.
Print Assumptions C80_classify_any.

(** do_regress with one specification of a fixed model: the model is returned as constructed, with its lookup, and the predictions are
    those of C80_regress_any. *)
Theorem C80_do_regress_fixed : forall gamma kv ls, exact_solver ls -> forall knn hnsw dist, sklearn_ok knn dist ->
  forall spec (make : spec -> result mmodel) fixed batch opt scale mscale,
  forall en method kw w d g K cur test train targets N M n ex,
  make d = Ok (lib_model gamma kv g K cur) -> fixed (lib_model gamma kv g K cur) = Ok true ->
  lower method = "exact" -> euclidean_kw kw -> nn_init en (rows_of train) n method kw = Ok w -> (0 < n <= N /\ 0 < M)%nat ->
  dataset test M -> dataset train N -> ndim test = ndim train -> feature_count test = feature_count train ->
  lk_ok K (feature_count train) cur [] -> shape targets = N :: ex -> no_coincidence ex [n] ->
  shape (gp_Kout g) = [] -> at_ (gp_Kout g) [] = 1 -> 0 <= gp_var_scale g ->
  noise_fits (gp_noise g) M n -> sound_noise (gp_noise g) train N M n ->
  exists mean var q,
    do_regress ls knn hnsw spec make fixed batch opt scale mscale en test train targets n method kw (KDict d)
      = Ok (Univariate (lib_model gamma kv g K cur), w, (mean, var)) /\
    forall x, (x < M)%nat ->
      nearest_rows test train N x n (q x) /\
      (forall e, inb ex e ->
        kriging n (nbr_matrix (lk_cov gamma kv K (feature_count train) cur []) (gp_noise g) train q x)
          (fun j => kcov (lk_cov gamma kv K (feature_count train) cur []) test train x (q x j))
          (fun j => at_ targets (q x j :: e)) (at_ mean (x :: e))) /\
      0 <= at_ var [x] <= gp_var_scale g.
Proof.
  intros gamma kv ls EX knn hnsw dist Hsk spec make fixed batch opt scale mscale en method kw w d g K cur test train targets N M n ex
    MK FX Hm He Hi Hn D1 D2 ND FC OK HT NC SK K1 SC NF SN.
  destruct (C80_regress_any gamma kv ls EX knn hnsw dist Hsk en method kw w g K cur test train targets N M n ex)
    as (mean & var & q & E & S1 & S2 & V); auto.
  exists mean, var, q. split.
  - unfold do_regress. rewrite Hi. cbn [rmap bind].
    rewrite (proj1 (fixed_univariate spec mmodel make fixed (Ok tt) (batch w) (fun i m => opt w i m) (fun m => scale w m) (fun ms => mscale w ms)
               (shape targets) d _ eq_refl MK FX)).
    cbn [bind]. rewrite E. reflexivity.
  - intros x Hx. destruct (V x Hx) as (A & B & _ & C). auto.
Qed.
Print Assumptions C80_do_regress_fixed.

(** In general do_regress and do_classify return the model they predicted with and the lookup it was trained on. *)
Theorem C80_returned_model : forall ls knn hnsw spec make fixed batch opt scale mscale en test train targets n method kw k,
  (forall m w p, do_regress ls knn hnsw spec make fixed batch opt scale mscale en test train targets n method kw k = Ok (m, w, p) ->
    nn_init en (rows_of train) n method kw = Ok w /\
    decide_and_make_regressor spec mmodel make fixed (Ok tt) (batch w) (opt w) (scale w) (mscale w) (shape targets) k = Ok m /\
    regress_any ls knn hnsw m test train w targets = Ok p) /\
  (forall m w p, do_classify ls knn hnsw spec make fixed batch opt mscale en test train targets n method kw k = Ok (m, w, p) ->
    nn_init en (rows_of train) n method kw = Ok w /\
    decide_and_make_classifier spec mmodel make fixed (Ok tt) (batch w) (opt w) (mscale w) (shape targets) k = Ok m /\
    work_classify_any ls knn hnsw m test train w targets = Ok p).
Proof.
  intros. split; intros m w p H; [eapply do_regress_inv|eapply do_classify_inv]; eauto.
Qed.
Print Assumptions C80_returned_model.

(** * C81 *)
(** Reordering the training data (features and targets alike) does not change any prediction whose neighbour distances are not tied. *)
Theorem C81_training_order_partial : forall gamma kv ls, exact_solver ls -> forall knn hnsw dist, sklearn_ok knn dist ->
  forall en method kw w en' method' kw' w' g K cur test train train' targets targets' N M n ex p,
  lower method = "exact" -> euclidean_kw kw -> nn_init en (rows_of train) n method kw = Ok w ->
  lower method' = "exact" -> euclidean_kw kw' -> nn_init en' (rows_of train') n method' kw' = Ok w' -> (0 < n <= N /\ 0 < M)%nat ->
  dataset test M -> dataset train N -> ndim test = ndim train -> feature_count test = feature_count train ->
  lk_ok K (feature_count train) cur [] -> shape targets = N :: ex -> no_coincidence ex [n] ->
  shape (gp_Kout g) = [] -> at_ (gp_Kout g) [] = 1 -> 0 <= gp_var_scale g ->
  uniform_noise (gp_noise g) -> sound_noise (gp_noise g) train N M n ->
  reordered train train' targets targets' N ex p ->
  exists mean var mean' var',
    regress_any ls knn hnsw (Univariate (lib_model gamma kv g K cur)) test train w targets = Ok (mean, var) /\
    regress_any ls knn hnsw (Univariate (lib_model gamma kv g K cur)) test train' w' targets' = Ok (mean', var') /\
    forall x, (x < M)%nat -> no_ties test train N x ->
      at_ var [x] = at_ var' [x] /\ forall e, inb ex e -> at_ mean (x :: e) = at_ mean' (x :: e).
Proof.
  intros gamma kv ls EX knn hnsw dist Hsk en method kw w en' method' kw' w' g K cur test train train' targets targets' N M n ex p.
  exact (regress_any_reordered gamma kv ls EX knn hnsw dist Hsk en method kw w en' method' kw' w' g K cur [] test train train' targets targets' N M n ex p).
Qed.
Print Assumptions C81_training_order_partial.

(** * C82 *)
(** Without noise and with distinct training rows, predicting at a training point returns its targets with zero variance. *)
Theorem C82_interpolation : forall gamma kv ls, exact_solver ls -> forall knn hnsw dist, sklearn_ok knn dist ->
  forall en method kw w g K cur test train targets N M n ex,
  lower method = "exact" -> euclidean_kw kw -> nn_init en (rows_of train) n method kw = Ok w -> (0 < n <= N /\ 0 < M)%nat ->
  dataset test M -> dataset train N -> ndim test = ndim train -> feature_count test = feature_count train ->
  lk_ok K (feature_count train) cur [] -> shape targets = N :: ex -> no_coincidence ex [n] ->
  shape (gp_Kout g) = [] -> at_ (gp_Kout g) [] = 1 -> 0 <= gp_var_scale g ->
  gp_noise g = NullNoise \/ gp_noise g = HomoscedasticNoise 0 -> distinct_rows train N (fun i => i) ->
  exists mean var,
    regress_any ls knn hnsw (Univariate (lib_model gamma kv g K cur)) test train w targets = Ok (mean, var) /\
    forall x a, (x < M)%nat -> (a < N)%nat -> same_row test train x a ->
      at_ var [x] = 0 /\ forall e, inb ex e -> at_ mean (x :: e) = at_ targets (a :: e).
Proof.
  intros gamma kv ls EX knn hnsw dist Hsk en method kw w g K cur test train targets N M n ex.
  exact (regress_any_interpolates gamma kv ls EX knn hnsw dist Hsk en method kw w g K cur [] test train targets N M n ex).
Qed.
Print Assumptions C82_interpolation.

(** The hypotheses of C80-C82 hold for training points 0, 1, 3 and test points 1, 2/5 with two neighbours, without noise, and for their
    reversal; test point 0 is training point 1. *)
Definition ex80_train : nd R := mkNd [3%nat] (fun idx => match idx with [O] => 0 | [1%nat] => 1 | _ => 3 end).
Definition ex80_train' : nd R := mkNd [3%nat] (fun idx => match idx with [O] => 3 | [1%nat] => 1 | _ => 0 end).
Definition ex80_test : nd R := mkNd [2%nat] (fun idx => match idx with [O] => 1 | _ => 2 / 5 end).
Definition ex80_targets : nd R := mkNd [3%nat] (fun idx => INR (hd O idx)).
Definition ex80_targets' : nd R := mkNd [3%nat] (fun idx => INR (2 - hd O idx)).
Definition ex80_K : libkernel := LRbf (Iso F2 (mkNamed "length_scale" 0)).
Definition ex80_gp : gp := mkGp NullNoise FixedScale 1 1 (mkNd [] (fun _ => 1)).

Example C80_sat : exists knn dist w w', sklearn_ok knn dist /\ euclidean_kw [] /\ lower "Exact" = "exact" /\
  nn_init false (rows_of ex80_train) 2 "Exact" [] = Ok w /\ nn_init false (rows_of ex80_train') 2 "Exact" [] = Ok w' /\ (0 < 2 <= 3)%nat /\
  dataset ex80_test 2 /\ dataset ex80_train 3 /\ ndim ex80_test = ndim ex80_train /\ feature_count ex80_test = feature_count ex80_train /\
  lk_ok ex80_K (feature_count ex80_train) (fun _ => 1) [] /\ shape ex80_targets = [3%nat] /\ no_coincidence [] [2%nat] /\
  shape (gp_Kout ex80_gp) = [] /\ at_ (gp_Kout ex80_gp) [] = 1 /\ 0 <= gp_var_scale ex80_gp /\
  noise_fits (gp_noise ex80_gp) 2 2 /\ distinct_rows ex80_train 3 (fun i => i) /\ sound_noise (gp_noise ex80_gp) ex80_train 3 2 2 /\
  reordered ex80_train ex80_train' ex80_targets ex80_targets' 3 [] (fun a => 2 - a)%nat /\
  no_ties ex80_test ex80_train 3 0 /\ no_ties ex80_test ex80_train 3 1 /\ same_row ex80_test ex80_train 0 1.
Proof.
  assert (DR : distinct_rows ex80_train 3 (fun i => i)).
  { intros i j Hi Hj Hij. exists O. split; [apply Nat.lt_0_1|]. unfold feature, ex80_train. cbn [shape at_].
    destruct i as [|[|[|i]]]; [| | |lia]; (destruct j as [|[|[|j]]]; [| | |lia]); try lia; lra. }
  exists ref_knn, (fun _ => ref_dist). do 2 eexists. split; [apply ref_ok|]. split; [unfold euclidean_kw; cbn; auto|]. split; [reflexivity|].
  split; [reflexivity|]. split; [reflexivity|]. split; [lia|]. split; [left; reflexivity|]. split; [left; reflexivity|].
  split; [reflexivity|]. split; [reflexivity|].
  split. { split; [reflexivity|]. split; [apply Nat.lt_0_1|]. split; [intros f _; cbn; lra|reflexivity]. }
  split; [reflexivity|]. split; [apply no_coincidence_nil|]. split; [reflexivity|]. split; [reflexivity|]. split; [cbn; lra|].
  split; [exact I|]. split; [exact DR|]. split; [right; split; [intros; cbn; lra|exact DR]|].
  split.
  { split; [split; intros; lia|]. split; [reflexivity|]. split; [reflexivity|]. intros a Ha. split.
    - intros f _. unfold feature, ex80_train, ex80_train'. cbn [shape at_]. destruct a as [|[|[|a]]]; [| | |lia]; reflexivity.
    - intros e _. cbn [ex80_targets ex80_targets' at_ hd]. reflexivity. }
  split; [|split].
  - intros a b Ha Hb. unfold row_dist, sqdist, feature, feature_count, ex80_train, ex80_test. cbn [shape at_ rsum].
    destruct a as [|[|[|a]]]; [| | |lia]; (destruct b as [|[|[|b]]]; [| | |lia]); intros E; try reflexivity; exfalso; lra.
  - intros a b Ha Hb. unfold row_dist, sqdist, feature, feature_count, ex80_train, ex80_test. cbn [shape at_ rsum].
    destruct a as [|[|[|a]]]; [| | |lia]; (destruct b as [|[|[|b]]]; [| | |lia]); intros E; try reflexivity; exfalso; lra.
  - intros f _. reflexivity.
Qed.

(** With ties the order matters: training points 0 and 2 with responses 0 and 1, test point 1 and one neighbour. *)
Definition ex81_train (a b : R) : nd R := mkNd [2%nat] (fun idx => match idx with [O] => a | _ => b end).
Definition ex81_test : nd R := mkNd [1%nat] (fun _ => 1).
Theorem C81_ties_refuted : forall gamma kv, exists ls knn dist, exact_solver ls /\ sklearn_ok knn dist /\
  forall hnsw, exists w w' mean var mean' var',
    nn_init false (rows_of (ex81_train 0 2)) 1 "exact" [] = Ok w /\ nn_init false (rows_of (ex81_train 2 0)) 1 "exact" [] = Ok w' /\
    reordered (ex81_train 0 2) (ex81_train 2 0) (ex81_train 0 1) (ex81_train 1 0) 2 [] (fun a => 1 - a)%nat /\
    regress_any ls knn hnsw (Univariate (lib_model gamma kv ex80_gp ex80_K (fun _ => 1))) ex81_test (ex81_train 0 2) w (ex81_train 0 1) = Ok (mean, var) /\
    regress_any ls knn hnsw (Univariate (lib_model gamma kv ex80_gp ex80_K (fun _ => 1))) ex81_test (ex81_train 2 0) w' (ex81_train 1 0) = Ok (mean', var') /\
    at_ mean [O] <> at_ mean' [O].
Proof.
  intros gamma kv. exists gauss, ref_knn, (fun _ => ref_dist). split; [exact gauss_exact|]. split; [exact ref_ok|]. intros hnsw.
  assert (DR : forall a b, a <> b -> distinct_rows (ex81_train a b) 2 (fun i => i)).
  { intros a b Hab i j Hi Hj Hij. exists O. split; [apply Nat.lt_0_1|]. unfold feature, ex81_train. cbn [shape at_].
    destruct i as [|[|i]]; [| |lia]; (destruct j as [|[|j]]; [| |lia]); try lia; auto. }
  assert (LK : forall a b, lk_ok ex80_K (feature_count (ex81_train a b)) (fun _ => 1) []).
  { intros a b. split; [reflexivity|]. split; [apply Nat.lt_0_1|]. split; [intros f _; cbn; lra|reflexivity]. }
  assert (Q : forall a b c d, a <> b -> (1 - a) ^ 2 = (1 - b) ^ 2 -> exists w mean var, nn_init false (rows_of (ex81_train a b)) 1 "exact" [] = Ok w /\
     regress_any gauss ref_knn hnsw (Univariate (lib_model gamma kv ex80_gp ex80_K (fun _ => 1))) ex81_test (ex81_train a b) w (ex81_train c d) = Ok (mean, var) /\
     at_ mean [O] = exp (- ((1 - a) ^ 2) / 2) * c).
  { intros a b c d Hab TIE. destruct (nn_init false (rows_of (ex81_train a b)) 1 "exact" []) as [w|e] eqn:Ew; [|discriminate].
    destruct (regress_any_nbr gamma kv gauss gauss_exact ref_knn hnsw (fun _ => ref_dist) ref_ok false "exact" [] w ex80_gp ex80_K (fun _ => 1) []
                ex81_test (ex81_train a b) (ex81_train c d) 2 1 1 [])
      as (mean & var & E & _ & _ & _ & V); auto; try reflexivity.
    { unfold euclidean_kw; cbn; auto. }
    { left; reflexivity. }
    { left; reflexivity. }
    { apply no_coincidence_nil. }
    { cbn; lra. }
    { right. split; [intros; cbn; lra|apply DR; auto]. }
    exists w, mean, var. split; [reflexivity|]. split; [exact E|].
    destruct (V O Nat.lt_0_1) as (_ & MV & _). destruct (MV [] inb_nil) as (wv & W & ->).
    assert (Q0 : nbr ref_knn hnsw w ex81_test 0 0 = O).
    { injection Ew as <-. unfold nbr, query_row. cbn [nn_meth nn_count nn_train].
      set (ctor := exact_ctor 1 []). destruct (is_minkowski2 ctor); unfold ref_knn, ref_all, isort; cbn [map seq List.length fold_right ins snd nth];
        (destruct (Rle_dec _ _) as [_|C]; [reflexivity|]); exfalso; apply C; apply Req_le; unfold ref_dist, row_pt; f_equal;
        cbn; cbn in TIE; lra. }
    specialize (W O Nat.lt_0_1). cbn [rsum] in W. unfold dot. cbn [rsum]. rewrite Q0 in W |- *.
    unfold nbr_matrix, plus_diag in W. rewrite Q0 in W. cbn [Nat.eqb noise_at gp_noise ex80_gp] in W.
    assert (K0 : kcov (lk_cov gamma kv ex80_K (feature_count (ex81_train a b)) (fun _ => 1) []) (ex81_train a b) (ex81_train a b) O O = 1)
      by (apply lk_cov_0; apply LK).
    rewrite K0 in W.
    assert (K1 : kcov (lk_cov gamma kv ex80_K (feature_count (ex81_train a b)) (fun _ => 1) []) ex81_test (ex81_train a b) O O = exp (- ((1 - a) ^ 2) / 2)).
    { unfold kcov, lk_cov, ex80_K, rbf_cov. cbn. f_equal. field. }
    rewrite K1 in W. cbn [ex81_train at_]. nra. }
  destruct (Q 0 2 0 1) as (w & mean & var & E1 & E2 & E3); [lra|lra|].
  destruct (Q 2 0 1 0) as (w' & mean' & var' & F1 & F2 & F3); [lra|lra|].
  exists w, w', mean, var, mean', var'. split; [exact E1|]. split; [exact F1|]. split.
  { split; [split; intros; lia|]. split; [reflexivity|]. split; [reflexivity|]. intros a Ha. split.
    - intros f _. unfold feature, ex81_train. cbn [shape at_]. destruct a as [|[|a]]; [| |lia]; reflexivity.
    - intros e He. apply inb_inv_nil in He. subst e. unfold ex81_train. cbn [at_]. destruct a as [|[|a]]; [| |lia]; reflexivity. }
  split; [exact E2|]. split; [exact F2|]. rewrite E3, F3. pose proof (exp_pos (- ((1 - 2) ^ 2) / 2)). lra.
Qed.
Print Assumptions C81_ties_refuted.

(** C79's hypotheses: a batch of two with three neighbours and four responses, or one. *)
Example C79_sat : let P := mkNd [2; 3; 3]%nat (fun _ => 1) in let C := mkNd [2; 3]%nat (fun _ => 1) in
  forall gamma kv, exists Kin Kcross,
    call_kernel gamma kv ex_store ex57 P [("length_scale", 3 / 2)] = Ok Kin /\
    call_kernel gamma kv ex_store ex57 C [("length_scale", 3 / 2)] = Ok Kcross /\
    shape Kin = [2; 3; 3]%nat /\ shape Kcross = [2; 3]%nat /\ noise_fits (gp_noise (gp_bound ex_store ex57)) 2 3.
Proof.
  intros P C gamma kv. do 2 eexists.
  split; [unfold call_kernel, kernel_call, ex57; cbn -[Rdiv Rmult exp]; reflexivity|].
  split; [unfold call_kernel, kernel_call, ex57; cbn -[Rdiv Rmult exp]; reflexivity|].
  split; [reflexivity|]. split; [reflexivity|]. exact I.
Qed.
