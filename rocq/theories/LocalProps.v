(** Property theorems C94 (locality; all rows as neighbours) and C95 (noise and the predicted variance). *)
From Coq Require Import Lia Lra.
From Verif Require Import Base BaseFacts NdModel NdFacts RSum HyperModel NamedModel NamedSpec LinAlgModel LinAlgSpec LinAlgFacts Gauss
  GPModel NoiseModel MuyGPSModel GPSpec GPTheorems WellPosedProofs TensorModel TensorSpec KernelModel KernelSpec KernelCases
  NeighborsModel NeighborsSpec NeighborsProofs BatchProofs FlowModel FlowSpec FlowProofs PointwiseSpec LibSpec LibProofs
  MultiModel DriverModel WorkModel WorkSpec WorkProofs WorkLemmas WorkProps BestSpec LocalSpec LocalProofs.
Local Open Scope R_scope.
Local Open Scope string_scope.

(** * C94 *)
(** The prediction of a test row is determined by its nearest training rows: any other training set (of any size, in any order) that
    contains those rows with their responses, and only farther rows besides, gives the same prediction. *)
Theorem C94_local : forall gamma kv ls, exact_solver ls -> forall knn hnsw dist, sklearn_ok knn dist ->
  forall en method kw w en' method' kw' w' g K cur test train targets train' targets' N N' M n ex,
  lower method = "exact" -> euclidean_kw kw -> nn_init en (rows_of train) n method kw = Ok w -> (0 < n <= N /\ 0 < M)%nat ->
  lower method' = "exact" -> euclidean_kw kw' -> nn_init en' (rows_of train') n method' kw' = Ok w' -> (0 < n <= N' /\ 0 < M)%nat ->
  dataset test M -> dataset train N -> ndim test = ndim train -> feature_count test = feature_count train ->
  dataset train' N' -> ndim train' = ndim train -> feature_count train' = feature_count train ->
  lk_ok K (feature_count train) cur [] -> shape targets = N :: ex -> shape targets' = N' :: ex -> no_coincidence ex [n] ->
  shape (gp_Kout g) = [] -> at_ (gp_Kout g) [] = 1 -> 0 <= gp_var_scale g ->
  noise_fits (gp_noise g) M n -> sound_noise (gp_noise g) train N M n -> sound_noise (gp_noise g) train' N' M n ->
  exists mean var mean' var',
    regress_any ls knn hnsw (Univariate (lib_model gamma kv g K cur)) test train w targets = Ok (mean, var) /\
    regress_any ls knn hnsw (Univariate (lib_model gamma kv g K cur)) test train' w' targets' = Ok (mean', var') /\
    forall x, (x < M)%nat -> no_ties test train N x -> same_nearby test train targets N train' targets' N' ex x n ->
      at_ var' [x] = at_ var [x] /\ forall e, inb ex e -> at_ mean' (x :: e) = at_ mean (x :: e).
Proof. exact local_any. Qed.
Print Assumptions C94_local.

(** In particular: rows appended to the training data do not change the prediction of a test row that has [n] closer training rows. *)
Theorem C94_append : forall gamma kv ls, exact_solver ls -> forall knn hnsw dist, sklearn_ok knn dist ->
  forall en method kw w en' method' kw' w' g K cur test train targets train' targets' N N' M n ex,
  lower method = "exact" -> euclidean_kw kw -> nn_init en (rows_of train) n method kw = Ok w -> (0 < n <= N /\ 0 < M)%nat ->
  lower method' = "exact" -> euclidean_kw kw' -> nn_init en' (rows_of train') n method' kw' = Ok w' -> (N <= N')%nat ->
  dataset test M -> dataset train N -> ndim test = ndim train -> feature_count test = feature_count train ->
  dataset train' N' -> ndim train' = ndim train -> feature_count train' = feature_count train ->
  lk_ok K (feature_count train) cur [] -> shape targets = N :: ex -> shape targets' = N' :: ex -> no_coincidence ex [n] ->
  shape (gp_Kout g) = [] -> at_ (gp_Kout g) [] = 1 -> 0 <= gp_var_scale g ->
  noise_fits (gp_noise g) M n -> sound_noise (gp_noise g) train N M n -> sound_noise (gp_noise g) train' N' M n ->
  (forall a, (a < N)%nat -> same_row train' train a a /\ forall e, inb ex e -> at_ targets' (a :: e) = at_ targets (a :: e)) ->
  exists mean var mean' var',
    regress_any ls knn hnsw (Univariate (lib_model gamma kv g K cur)) test train w targets = Ok (mean, var) /\
    regress_any ls knn hnsw (Univariate (lib_model gamma kv g K cur)) test train' w' targets' = Ok (mean', var') /\
    forall x p, (x < M)%nat -> no_ties test train N x -> nearest_rows test train N x n p ->
      (forall a j, (N <= a < N')%nat -> (j < n)%nat -> row_dist test train x (p j) < row_dist test train' x a) ->
      at_ var' [x] = at_ var [x] /\ forall e, inb ex e -> at_ mean' (x :: e) = at_ mean (x :: e).
Proof.
  intros gamma kv ls EX knn hnsw dist Hsk en method kw w en' method' kw' w' g K cur test train targets train' targets' N N' M n ex
    Hm He Hi Hn Hm' He' Hi' Hn' D1 D2 ND FC D2' ND' FT OK HT HT' NC SK K1 SC NF SN SN' SAME.
  destruct (local_any gamma kv ls EX knn hnsw dist Hsk en method kw w en' method' kw' w' g K cur test train targets train' targets' N N' M n ex)
    as (mean & var & mean' & var' & E & E' & H); auto; [lia|].
  exists mean, var, mean', var'. split; [exact E|]. split; [exact E'|]. intros x p Hx NT PN FAR. apply H; auto.
  exists p, p. split; [exact PN|]. pose proof PN as (PB & PI & PS & PO). split; [|split; [exact PI|]].
  - intros j Hj. split; [pose proof (PB j Hj); lia|]. apply SAME. apply PB. exact Hj.
  - intros a Ha NA j Hj. destruct (Nat.lt_ge_cases a N) as [L|L]; [|apply FAR; [lia|exact Hj]].
    rewrite (row_dist_same_r test train' train x a a FT (proj1 (SAME a L))).
    destruct (PO a L NA j Hj) as [Lt|Eq]; [exact Lt|]. exfalso. apply (NA j Hj). apply NT; auto.
Qed.
Print Assumptions C94_append.

(** With every training row as a neighbour the predictions are those of the exact Gaussian process on all the data: the order in which the
    lookup returns the rows, and ties, have no influence. *)
Theorem C94_exact_gp : forall gamma kv ls, exact_solver ls -> forall knn hnsw dist, sklearn_ok knn dist ->
  forall en method kw w g K cur test train targets N M ex,
  lower method = "exact" -> euclidean_kw kw -> nn_init en (rows_of train) N method kw = Ok w -> (0 < N /\ 0 < M)%nat ->
  dataset test M -> dataset train N -> ndim test = ndim train -> feature_count test = feature_count train ->
  lk_ok K (feature_count train) cur [] -> shape targets = N :: ex -> no_coincidence ex [N] ->
  shape (gp_Kout g) = [] -> at_ (gp_Kout g) [] = 1 -> 0 <= gp_var_scale g ->
  uniform_noise (gp_noise g) -> sound_noise (gp_noise g) train N M N ->
  let k := lk_cov gamma kv K (feature_count train) cur [] in
  let A := full_matrix k (gp_noise g) train in
  exists mean var,
    regress_any ls knn hnsw (Univariate (lib_model gamma kv g K cur)) test train w targets = Ok (mean, var) /\
    forall x, (x < M)%nat ->
      nonsingular N A /\
      (forall e, inb ex e -> kriging N A (fun a => kcov k test train x a) (fun a => at_ targets (a :: e)) (at_ mean (x :: e))) /\
      exists t, kriging N A (fun a => kcov k test train x a) (fun a => kcov k test train x a) t /\ at_ var [x] = gp_var_scale g * (1 - t).
Proof. exact all_any. Qed.
Print Assumptions C94_exact_gp.

(** * C95 *)
(** More noise, in every neighbour, never makes a prediction more certain. *)
Theorem C95_noise_monotone : forall gamma kv ls, exact_solver ls -> forall knn hnsw dist, sklearn_ok knn dist ->
  forall en method kw w g g' K cur test train targets N M n ex,
  lower method = "exact" -> euclidean_kw kw -> nn_init en (rows_of train) n method kw = Ok w -> (0 < n <= N /\ 0 < M)%nat ->
  dataset test M -> dataset train N -> ndim test = ndim train -> feature_count test = feature_count train ->
  lk_ok K (feature_count train) cur [] -> shape targets = N :: ex -> no_coincidence ex [n] ->
  shape (gp_Kout g) = [] -> at_ (gp_Kout g) [] = 1 -> shape (gp_Kout g') = [] -> at_ (gp_Kout g') [] = 1 ->
  0 <= gp_var_scale g -> gp_var_scale g' = gp_var_scale g ->
  noise_fits (gp_noise g) M n -> sound_noise (gp_noise g) train N M n -> noise_fits (gp_noise g') M n ->
  (forall x i, (x < M)%nat -> (i < n)%nat -> noise_at (gp_noise g) None x i <= noise_at (gp_noise g') None x i) ->
  exists mean var mean' var',
    regress_any ls knn hnsw (Univariate (lib_model gamma kv g K cur)) test train w targets = Ok (mean, var) /\
    regress_any ls knn hnsw (Univariate (lib_model gamma kv g' K cur)) test train w targets = Ok (mean', var') /\
    forall x, (x < M)%nat -> at_ var [x] <= at_ var' [x].
Proof. exact noise_monotone. Qed.
Print Assumptions C95_noise_monotone.

(** Predictions with noise, and predictions at new points, are never reported as certain. *)
Theorem C95_variance_positive : forall gamma kv ls, exact_solver ls -> forall knn hnsw dist, sklearn_ok knn dist ->
  forall en method kw w g K cur test train targets N M n ex,
  lower method = "exact" -> euclidean_kw kw -> nn_init en (rows_of train) n method kw = Ok w -> (0 < n <= N /\ 0 < M)%nat ->
  dataset test M -> dataset train N -> ndim test = ndim train -> feature_count test = feature_count train ->
  lk_ok K (feature_count train) cur [] -> shape targets = N :: ex -> no_coincidence ex [n] ->
  shape (gp_Kout g) = [] -> at_ (gp_Kout g) [] = 1 -> 0 < gp_var_scale g ->
  noise_fits (gp_noise g) M n -> sound_noise (gp_noise g) train N M n ->
  exists mean var,
    regress_any ls knn hnsw (Univariate (lib_model gamma kv g K cur)) test train w targets = Ok (mean, var) /\
    forall x, (x < M)%nat ->
      (forall i, (i < n)%nat -> 0 < noise_at (gp_noise g) None x i) \/ distinct_rows train N (fun i => i) /\ new_row test train x N ->
      0 < at_ var [x].
Proof. exact variance_positive. Qed.
Print Assumptions C95_variance_positive.

(** With homoscedastic noise and distinct training rows the variance is zero exactly at the training rows of a noise-free model. *)
Theorem C95_zero_variance : forall gamma kv ls, exact_solver ls -> forall knn hnsw dist, sklearn_ok knn dist ->
  forall en method kw w g K cur test train targets N M n ex v,
  lower method = "exact" -> euclidean_kw kw -> nn_init en (rows_of train) n method kw = Ok w -> (0 < n <= N /\ 0 < M)%nat ->
  dataset test M -> dataset train N -> ndim test = ndim train -> feature_count test = feature_count train ->
  lk_ok K (feature_count train) cur [] -> shape targets = N :: ex -> no_coincidence ex [n] ->
  shape (gp_Kout g) = [] -> at_ (gp_Kout g) [] = 1 -> 0 < gp_var_scale g ->
  gp_noise g = HomoscedasticNoise v -> 0 <= v -> distinct_rows train N (fun i => i) ->
  exists mean var,
    regress_any ls knn hnsw (Univariate (lib_model gamma kv g K cur)) test train w targets = Ok (mean, var) /\
    forall x, (x < M)%nat -> (at_ var [x] = 0 <-> v = 0 /\ exists a, (a < N)%nat /\ same_row test train x a).
Proof. exact variance_zero. Qed.
Print Assumptions C95_zero_variance.

(** The data of C80_sat with a fourth training row, at 10, and the first two neighbours of the test point 2/5; with all three neighbours;
    with homoscedastic noise 1/10 instead of none. *)
Definition ex94_train : nd R := mkNd [4%nat] (fun idx => match idx with [O] => 0 | [1%nat] => 1 | [2%nat] => 3 | _ => 10 end).
Definition ex94_targets : nd R := mkNd [4%nat] (fun idx => INR (hd O idx)).
Definition ex95_gp : gp := mkGp (HomoscedasticNoise (1/10)) FixedScale 1 1 (mkNd [] (fun _ => 1)).
Example C94_sat : exists w w' w3,
  nn_init false (rows_of ex80_train) 2 "exact" [] = Ok w /\ nn_init false (rows_of ex94_train) 2 "exact" [] = Ok w' /\
  nn_init false (rows_of ex80_train) 3 "exact" [] = Ok w3 /\
  dataset ex94_train 4 /\ ndim ex94_train = ndim ex80_train /\ feature_count ex94_train = feature_count ex80_train /\
  sound_noise (gp_noise ex80_gp) ex80_train 3 2 2 /\ sound_noise (gp_noise ex80_gp) ex94_train 4 2 2 /\
  sound_noise (gp_noise ex80_gp) ex80_train 3 2 3 /\ uniform_noise (gp_noise ex80_gp) /\
  no_ties ex80_test ex80_train 3 1 /\ nearest_rows ex80_test ex80_train 3 1 2 (fun j => j) /\
  (forall a j, (3 <= a < 4)%nat -> (j < 2)%nat -> row_dist ex80_test ex80_train 1 j < row_dist ex80_test ex94_train 1 a) /\
  same_nearby ex80_test ex80_train ex80_targets 3 ex94_train ex94_targets 4 [] 1 2.
Proof.
  destruct C80_sat as (knn & dist & w & w' & H). decompose [and] H. do 3 eexists. split; [reflexivity|]. split; [reflexivity|]. split; [reflexivity|].
  split; [left; reflexivity|]. split; [reflexivity|]. split; [reflexivity|]. split; [assumption|].
  assert (NR : nearest_rows ex80_test ex80_train 3 1 2 (fun j => j)).
  { split; [intros; lia|]. split; [auto|]. unfold row_dist, sqdist, feature, feature_count, ex80_train, ex80_test. cbn [shape at_ rsum]. split.
    - intros i j Hij Hj. destruct j as [|[|j]]; [|destruct i as [|[|i]]; [| |lia]|lia]; [replace i with O by lia|..]; lra.
    - intros a Ha NA j Hj. destruct a as [|[|[|a]]]; [exfalso; apply (NA O); [lia|reflexivity]|exfalso; apply (NA 1%nat); [lia|reflexivity]| |lia].
      destruct j as [|[|j]]; [| |lia]; lra. }
  assert (FAR : forall a j, (3 <= a < 4)%nat -> (j < 2)%nat -> row_dist ex80_test ex80_train 1 j < row_dist ex80_test ex94_train 1 a).
  { intros a j Ha Hj. replace a with 3%nat by lia. unfold row_dist, sqdist, feature, feature_count, ex80_train, ex94_train, ex80_test. cbn [shape at_ rsum].
    destruct j as [|[|j]]; [| |lia]; lra. }
  split.
  { right. split; [intros; cbn; lra|]. intros i j Hi Hj Hij. exists O. split; [apply Nat.lt_0_1|]. unfold feature, ex94_train. cbn [shape at_].
    destruct i as [|[|[|[|i]]]]; [| | | |lia]; (destruct j as [|[|[|[|j]]]]; [| | | |lia]); try lia; lra. }
  split. { right. split; [intros; cbn; lra|assumption]. }
  split; [left; reflexivity|]. split; [assumption|]. split; [exact NR|]. split; [exact FAR|].
  exists (fun j => j), (fun j => j). split; [exact NR|]. split; [|split; [auto|]].
  - intros j Hj. split; [lia|]. split; [intros f _; unfold feature, ex94_train, ex80_train; cbn [shape at_]; destruct j as [|[|j]]; [reflexivity|reflexivity|lia]|].
    intros e _. reflexivity.
  - intros a Ha NA j Hj. destruct a as [|[|[|a]]]; [exfalso; apply (NA O); [lia|reflexivity]|exfalso; apply (NA 1%nat); [lia|reflexivity]| |].
    + unfold row_dist, sqdist, feature, feature_count, ex80_train, ex94_train, ex80_test. cbn [shape at_ rsum]. destruct j as [|[|j]]; [| |lia]; lra.
    + apply FAR; lia.
Qed.
Example C95_sat : (forall x i, (x < 2)%nat -> (i < 2)%nat -> noise_at (gp_noise ex80_gp) None x i <= noise_at (gp_noise ex95_gp) None x i) /\
  noise_fits (gp_noise ex95_gp) 2 2 /\ gp_var_scale ex95_gp = gp_var_scale ex80_gp /\ 0 < gp_var_scale ex80_gp /\
  distinct_rows ex80_train 3 (fun i => i) /\ new_row ex80_test ex80_train 1 3 /\ same_row ex80_test ex80_train 0 1.
Proof.
  destruct C80_sat as (knn & dist & w & w' & H). decompose [and] H.
  split; [intros; cbn; lra|]. split; [exact I|]. split; [reflexivity|]. split; [cbn; lra|]. split; [assumption|]. split; [|assumption].
  intros a Ha. exists O. split; [apply Nat.lt_0_1|]. unfold feature, ex80_train, ex80_test. cbn [shape at_]. destruct a as [|[|[|a]]]; [| | |lia]; lra.
Qed.
