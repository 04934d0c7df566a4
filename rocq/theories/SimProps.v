(** Property theorems C92: predictions do not depend on the coordinates of the features. *)
From Coq Require Import Lia Lra.
From Verif Require Import Base BaseFacts NdModel NdFacts RSum HyperModel NamedModel NamedSpec LinAlgModel LinAlgSpec LinAlgFacts Gauss
  GPModel NoiseModel MuyGPSModel GPSpec GPTheorems TensorModel TensorSpec KernelModel KernelSpec KernelCases
  NeighborsModel NeighborsSpec NeighborsProofs BatchProofs FlowModel FlowSpec FlowProofs PointwiseSpec LibSpec LibProofs
  MultiModel DriverModel WorkModel WorkSpec WorkProofs WorkLemmas WorkProps SimSpec SimProofs.
Local Open Scope R_scope.
Local Open Scope string_scope.

(** * C92 *)
(** Isotropic kernels: moving, rotating, reflecting or embedding the data (ratio 1), or rescaling the data and the length scale by the
    same ratio, changes no prediction of a test row whose distances are not tied. *)
Theorem C92_similarity : forall gamma kv ls, exact_solver ls -> forall knn hnsw dist, sklearn_ok knn dist ->
  forall en method kw w en' method' kw' w' g K l cur cur' test train test' train' targets N M n ex c,
  lower method = "exact" -> euclidean_kw kw -> nn_init en (rows_of train) n method kw = Ok w ->
  lower method' = "exact" -> euclidean_kw kw' -> nn_init en' (rows_of train') n method' kw' = Ok w' -> (0 < n <= N /\ 0 < M)%nat ->
  lk_ok K (feature_count train) cur [] -> (0 < feature_count train')%nat -> isotropic K l ->
  0 < c -> cur' l = c * cur l -> same_smoothness K cur cur' -> similar c test train test' train' M N ->
  dataset test M -> dataset train N -> ndim test = ndim train -> feature_count test = feature_count train ->
  dataset test' M -> dataset train' N -> ndim test' = ndim train' -> feature_count test' = feature_count train' ->
  shape targets = N :: ex -> no_coincidence ex [n] ->
  shape (gp_Kout g) = [] -> at_ (gp_Kout g) [] = 1 -> 0 <= gp_var_scale g ->
  noise_fits (gp_noise g) M n -> sound_noise (gp_noise g) train N M n ->
  exists mean var mean' var',
    regress_any ls knn hnsw (Univariate (lib_model gamma kv g K cur)) test train w targets = Ok (mean, var) /\
    regress_any ls knn hnsw (Univariate (lib_model gamma kv g K cur')) test' train' w' targets = Ok (mean', var') /\
    forall x, (x < M)%nat -> no_ties test train N x ->
      at_ var' [x] = at_ var [x] /\ forall e, inb ex e -> at_ mean' (x :: e) = at_ mean (x :: e).
Proof. exact sim_any. Qed.
Print Assumptions C92_similarity.

(** Any kernel, neighbours given by index: measuring every feature in another unit and from another origin, and its length scale in the
    same unit, changes no prediction. *)
Theorem C92_units_indices : forall gamma kv ls, exact_solver ls ->
  forall g K cur cur' nn test train test' train' targets N M n q ex s t,
  lk_ok K (feature_count train) cur [] -> same_smoothness K cur cur' ->
  (forall f, (f < feature_count train)%nat -> 0 < s f /\ scale_of (lk_def K) cur' [] f = s f * scale_of (lk_def K) cur [] f) ->
  new_units s t test test' M -> new_units s t train train' N ->
  dataset test M -> dataset train N -> ndim test = ndim train -> feature_count test = feature_count train ->
  shape targets = N :: ex -> no_coincidence ex [n] ->
  shape (gp_Kout g) = [] -> at_ (gp_Kout g) [] = 1 -> 0 <= gp_var_scale g ->
  index_matrix nn M n N q -> noise_fits (gp_noise g) M n -> well_posed (gp_noise g) train M n q ->
  exists mean var mean' var',
    regress_from_indices ls (lib_model gamma kv g K cur) (arange M) nn test train targets = Ok (mean, var) /\
    regress_from_indices ls (lib_model gamma kv g K cur') (arange M) nn test' train' targets = Ok (mean', var') /\
    forall x, (x < M)%nat -> at_ var' [x] = at_ var [x] /\ forall e, inb ex e -> at_ mean' (x :: e) = at_ mean (x :: e).
Proof. exact units_indices. Qed.
Print Assumptions C92_units_indices.

(** With one ratio for all features, the nearest neighbours stay the same as well. *)
Theorem C92_units : forall gamma kv ls, exact_solver ls -> forall knn hnsw dist, sklearn_ok knn dist ->
  forall en method kw w en' method' kw' w' g K cur cur' test train test' train' targets N M n ex c t,
  lower method = "exact" -> euclidean_kw kw -> nn_init en (rows_of train) n method kw = Ok w ->
  lower method' = "exact" -> euclidean_kw kw' -> nn_init en' (rows_of train') n method' kw' = Ok w' -> (0 < n <= N /\ 0 < M)%nat ->
  lk_ok K (feature_count train) cur [] -> same_smoothness K cur cur' -> 0 < c ->
  (forall f, (f < feature_count train)%nat -> scale_of (lk_def K) cur' [] f = c * scale_of (lk_def K) cur [] f) ->
  new_units (fun _ => c) t test test' M -> new_units (fun _ => c) t train train' N ->
  dataset test M -> dataset train N -> ndim test = ndim train -> feature_count test = feature_count train ->
  shape targets = N :: ex -> no_coincidence ex [n] ->
  shape (gp_Kout g) = [] -> at_ (gp_Kout g) [] = 1 -> 0 <= gp_var_scale g ->
  noise_fits (gp_noise g) M n -> sound_noise (gp_noise g) train N M n ->
  exists mean var mean' var',
    regress_any ls knn hnsw (Univariate (lib_model gamma kv g K cur)) test train w targets = Ok (mean, var) /\
    regress_any ls knn hnsw (Univariate (lib_model gamma kv g K cur')) test' train' w' targets = Ok (mean', var') /\
    forall x, (x < M)%nat -> no_ties test train N x ->
      at_ var' [x] = at_ var [x] /\ forall e, inb ex e -> at_ mean' (x :: e) = at_ mean (x :: e).
Proof. exact units_any. Qed.
Print Assumptions C92_units.

(** The data of C80_sat laid out, twice as large, along any line of the plane. *)
Definition ex92_embed (theta : R) (X : nd R) (n : nat) : nd R :=
  mkNd [n; 2%nat] (fun idx => match idx with [i; O] => 1 + 2 * feature X i 0 * cos theta | [i; _] => 2 * feature X i 0 * sin theta | _ => 0 end).
Example C92_sat : forall theta, exists w w',
  nn_init false (rows_of ex80_train) 2 "exact" [] = Ok w /\ nn_init false (rows_of (ex92_embed theta ex80_train 3)) 2 "exact" [] = Ok w' /\
  isotropic ex80_K 0 /\ same_smoothness ex80_K (fun _ => 1) (fun _ => 2) /\ lk_ok ex80_K (feature_count ex80_train) (fun _ => 1) [] /\
  (0 < feature_count (ex92_embed theta ex80_train 3))%nat /\
  similar 2 ex80_test ex80_train (ex92_embed theta ex80_test 2) (ex92_embed theta ex80_train 3) 2 3 /\
  dataset (ex92_embed theta ex80_test 2) 2 /\ dataset (ex92_embed theta ex80_train 3) 3 /\
  no_ties ex80_test ex80_train 3 1.
Proof.
  intros theta. destruct C80_sat as (knn & dist & w & w' & H). decompose [and] H. do 2 eexists. split; [reflexivity|]. split; [reflexivity|].
  split; [reflexivity|]. split; [exact I|]. split; [assumption|]. split; [cbn; lia|].
  split; [|split; [right; eexists; reflexivity|split; [right; eexists; reflexivity|assumption]]].
  assert (E : forall X Y n m x a, shape Y = [3%nat] -> row_dist (ex92_embed theta X n) (ex92_embed theta Y m) x a = 2 ^ 2 * row_dist X Y x a).
  { intros X Y n m x a SY. unfold row_dist, sqdist. change (feature_count (ex92_embed theta Y m)) with 2%nat.
    assert (FY : feature_count Y = 1%nat) by (unfold feature_count; rewrite SY; reflexivity). rewrite FY. cbn [rsum].
    unfold feature at 1 2 3 4. unfold ex92_embed. cbn [shape at_].
    pose proof (sin2_cos2 theta) as SC. unfold Rsqr in SC.
    set (u := feature X x 0). set (v := feature Y a 0). set (cc := cos theta) in *. set (ss := sin theta) in *.
    replace (0 + (1 + 2 * u * cc - (1 + 2 * v * cc)) ^ 2 + (2 * u * ss - 2 * v * ss) ^ 2) with (2 ^ 2 * (u - v) ^ 2 * (ss * ss + cc * cc)) by ring.
    rewrite SC. ring. }
  split; intros; apply E; reflexivity.
Qed.
