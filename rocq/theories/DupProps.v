(** Repeated measurements (C113). *)
From Coq Require Import Lia Lra.
From Verif Require Import Base BaseFacts NdModel NdFacts RSum HyperModel NamedModel NamedSpec LinAlgModel LinAlgSpec LinAlgFacts Gauss
  GPModel NoiseModel MuyGPSModel GPSpec GPTheorems TensorModel TensorSpec KernelModel KernelSpec KernelCases
  NeighborsModel NeighborsSpec NeighborsProofs BatchProofs FlowModel FlowSpec FlowProofs PointwiseSpec LibSpec LibProofs
  MultiModel DriverModel WorkModel WorkSpec WorkProofs WorkLemmas WorkProps DupSpec DupProofs.
Local Open Scope R_scope.
Local Open Scope string_scope.

(** * C113 *)
(** A prediction from n neighbours that are repeated measurements of m points is the prediction from these m points, each with the
    precision-weighted mean of its measurements as response and the inverse of their summed precisions as noise variance. *)
Theorem C113_pooled : forall gamma kv ls, exact_solver ls ->
  forall g g' K cur nn nn' test train train' targets targets' N N' M n m q q' ex,
  lk_ok K (feature_count train) cur [] -> dataset test M -> dataset train N -> dataset train' N' ->
  ndim test = ndim train -> ndim test = ndim train' -> feature_count test = feature_count train -> feature_count test = feature_count train' ->
  shape targets = N :: ex -> shape targets' = N' :: ex -> no_coincidence ex [n] -> no_coincidence ex [m] ->
  shape (gp_Kout g) = [] -> at_ (gp_Kout g) [] = 1 -> 0 <= gp_var_scale g ->
  shape (gp_Kout g') = [] -> at_ (gp_Kout g') [] = 1 -> gp_var_scale g' = gp_var_scale g ->
  index_matrix nn M n N q -> index_matrix nn' M m N' q' -> noise_fits (gp_noise g) M n -> noise_fits (gp_noise g') M m ->
  (forall x i, (x < M)%nat -> (i < n)%nat -> 0 < noise_at (gp_noise g) None x i) ->
  (forall x a, (x < M)%nat -> (a < m)%nat -> 0 < noise_at (gp_noise g') None x a) ->
  exists mean var mean' var',
    regress_from_indices ls (lib_model gamma kv g K cur) (arange M) nn test train targets = Ok (mean, var) /\
    regress_from_indices ls (lib_model gamma kv g' K cur) (arange M) nn' test train' targets' = Ok (mean', var') /\
    shape mean = shape mean' /\ shape var = shape var' /\
    forall x p, (x < M)%nat -> repeats train train' n m (q x) (q' x) p ->
      (forall a, (a < m)%nat -> pooled_noise n p (noise_at (gp_noise g) None x) a (noise_at (gp_noise g') None x a)) ->
      at_ var [x] = at_ var' [x] /\
      forall e, inb ex e ->
        (forall a, (a < m)%nat -> pooled_response n p (noise_at (gp_noise g) None x) (fun i => at_ targets (q x i :: e)) a (at_ targets' (q' x a :: e))) ->
        at_ mean (x :: e) = at_ mean' (x :: e).
Proof. exact pooled. Qed.
Print Assumptions C113_pooled.

(** The whole workflow: a training set in which every point was measured r times, with r * m neighbours and noise variance nu, gives the
    predictions of the training set of averages with m neighbours and noise variance nu / r. *)
Theorem C113_replicated : forall gamma kv ls knn hnsw dist, exact_solver ls -> sklearn_ok knn dist ->
  forall en en' method method' kw kw' w w' g g' K cur test train train' targets targets' N N' M r m nu pi ex,
  lower method = "exact" -> euclidean_kw kw -> nn_init en (rows_of train) (r * m) method kw = Ok w ->
  lower method' = "exact" -> euclidean_kw kw' -> nn_init en' (rows_of train') m method' kw' = Ok w' ->
  (0 < r /\ 0 < m <= N' /\ r * m <= N /\ 0 < M)%nat ->
  dataset test M -> dataset train N -> dataset train' N' -> ndim test = ndim train -> ndim test = ndim train' ->
  feature_count test = feature_count train -> feature_count test = feature_count train' ->
  lk_ok K (feature_count train) cur [] -> shape targets = N :: ex -> shape targets' = N' :: ex ->
  no_coincidence ex [(r * m)%nat] -> no_coincidence ex [m] ->
  shape (gp_Kout g) = [] -> at_ (gp_Kout g) [] = 1 -> 0 <= gp_var_scale g ->
  shape (gp_Kout g') = [] -> at_ (gp_Kout g') [] = 1 -> gp_var_scale g' = gp_var_scale g ->
  gp_noise g = HomoscedasticNoise nu -> 0 < nu -> gp_noise g' = HomoscedasticNoise (nu / INR r) ->
  replicated train train' N N' r pi ->
  (forall b e, (b < N')%nat -> inb ex e -> averaged N pi (fun a => at_ targets (a :: e)) b (at_ targets' (b :: e))) ->
  exists mean var mean' var',
    regress_any ls knn hnsw (Univariate (lib_model gamma kv g K cur)) test train w targets = Ok (mean, var) /\
    regress_any ls knn hnsw (Univariate (lib_model gamma kv g' K cur)) test train' w' targets' = Ok (mean', var') /\
    shape mean = shape mean' /\ shape var = shape var' /\
    forall x, (x < M)%nat -> no_ties test train' N' x ->
      at_ var [x] = at_ var' [x] /\ forall e, inb ex e -> at_ mean (x :: e) = at_ mean' (x :: e).
Proof. intros gamma kv ls knn hnsw dist EX SK. exact (replicated_any gamma kv ls knn hnsw dist EX SK). Qed.
Print Assumptions C113_replicated.

(** The hypotheses hold: points 0, 1 and 3 measured twice (in the order 0 1 3 0 1 3), responses 0 .. 5, noise 1; their averages 3/2, 5/2, 7/2
    with noise 1/2. *)
Definition ex113_train : nd R := mkNd [6%nat] (fun idx => match idx with [O] | [3%nat] => 0 | [1%nat] | [4%nat] => 1 | _ => 3 end).
Definition ex113_targets : nd R := mkNd [6%nat] (fun idx => INR (hd O idx)).
Definition ex113_targets' : nd R := mkNd [3%nat] (fun idx => INR (hd O idx) + 3 / 2).
Definition ex113_pi (a : nat) : nat := match a with O | 3%nat => 0%nat | 1%nat | 4%nat => 1%nat | _ => 2%nat end.
Definition ex113_gp (nu : R) : gp := mkGp (HomoscedasticNoise nu) FixedScale 1 1 (mkNd [] (fun _ => 1)).
Example C113_sat : exists knn dist w w', sklearn_ok knn dist /\ euclidean_kw [] /\ lower "Exact" = "exact" /\
  nn_init false (rows_of ex113_train) (2 * 2) "Exact" [] = Ok w /\ nn_init false (rows_of ex80_train) 2 "Exact" [] = Ok w' /\
  dataset ex80_test 2 /\ dataset ex113_train 6 /\ dataset ex80_train 3 /\ ndim ex80_test = ndim ex113_train /\
  feature_count ex80_test = feature_count ex113_train /\ lk_ok ex80_K (feature_count ex113_train) (fun _ => 1) [] /\
  gp_noise (ex113_gp 1) = HomoscedasticNoise 1 /\ gp_noise (ex113_gp (1 / 2)) = HomoscedasticNoise (1 / INR 2) /\
  replicated ex113_train ex80_train 6 3 2 ex113_pi /\
  (forall b e, (b < 3)%nat -> inb [] e -> averaged 6 ex113_pi (fun a => at_ ex113_targets (a :: e)) b (at_ ex113_targets' (b :: e))) /\
  no_ties ex80_test ex80_train 3 0 /\ no_ties ex80_test ex80_train 3 1.
Proof.
  destruct C80_sat as (knn & dist & w & w' & H). decompose [and] H. exists knn, dist. do 2 eexists.
  split; [assumption|]. split; [assumption|]. split; [reflexivity|]. split; [reflexivity|]. split; [reflexivity|].
  split; [assumption|]. split; [left; reflexivity|]. split; [assumption|]. split; [reflexivity|]. split; [reflexivity|]. split; [assumption|].
  split; [reflexivity|]. split; [cbn [gp_noise ex113_gp]; f_equal; cbn [INR]; lra|].
  split.
  { split.
    - intros a Ha. destruct a as [|[|[|[|[|[|a]]]]]]; [| | | | | |lia]; (split; [cbn [ex113_pi]; lia|]); intros f _; reflexivity.
    - intros b Hb. destruct b as [|[|[|b]]]; [| | |lia]; reflexivity. }
  split; [|split; assumption].
  intros b e Hb _. unfold averaged, measurements, group_sum, ex113_targets, ex113_targets'. cbn [at_ hd].
  destruct b as [|[|[|b]]]; [| | |lia]; cbn [rsum ex113_pi Nat.eqb]; cbn [INR]; field.
Qed.

(** Different noise for every measurement: two measurements 2 and 5 of one point, with noise variances 1 and 2, act as one measurement 3 with
    noise variance 2/3. *)
Example C113_pooling : let noise := fun i => match i with O => 1 | _ => 2 end in let y := fun i => match i with O => 2 | _ => 5 end in
  pooled_noise 2 (fun _ => O) noise 0 (2 / 3) /\ pooled_response 2 (fun _ => O) noise y 0 3 /\
  repeats (ex81_train 1 1) (ex81_train 1 7) 2 1 (fun i => i) (fun i => i) (fun _ => O).
Proof.
  cbv zeta. split; [|split].
  - unfold pooled_noise, group_sum. cbn. field.
  - unfold pooled_response, group_sum. cbn. field.
  - split.
    + intros i Hi. split; [lia|]. intros f _. unfold feature, ex81_train. cbn [shape at_]. destruct i as [|[|i]]; [| |lia]; reflexivity.
    + intros a Ha. exists O. split; [lia|]. destruct a; [reflexivity|lia].
Qed.
