(** C120: very long and very short length scales. *)
From Coq Require Import Lia Lra.
From Verif Require Import Base BaseFacts NdModel NdFacts RSum HyperModel NamedModel NamedSpec LinAlgModel LinAlgSpec Gauss
  GPModel NoiseModel MuyGPSModel GPSpec GPTheorems TensorModel TensorSpec KernelModel KernelSpec
  NeighborsModel NeighborsSpec NeighborsProofs BatchProofs FlowModel FlowSpec LibSpec LibProofs
  MultiModel DriverModel WorkModel WorkSpec WorkProofs WorkLemmas WorkProps LongSpec LongProofs.
Local Open Scope R_scope.
Local Open Scope string_scope.

(** * C120 *)
(** When all length scales grow (with positive noise), the predictions tend to the precision-weighted sum of the neighbours' responses divided by
    one plus the total precision, and the variances to the scale divided by the same: uniformly, within [eps] from some length on. *)
Theorem C120_long : forall gamma kv ls, exact_solver ls -> forall knn hnsw dist, sklearn_ok knn dist ->
  forall en method kw w g K test train targets N M n ex,
  lower method = "exact" -> euclidean_kw kw -> nn_init en (rows_of train) n method kw = Ok w -> (0 < n <= N /\ 0 < M)%nat ->
  dataset test M -> dataset train N -> ndim test = ndim train -> feature_count test = feature_count train ->
  shape targets = N :: ex -> no_coincidence ex [n] ->
  shape (gp_Kout g) = [] -> at_ (gp_Kout g) [] = 1 -> 0 <= gp_var_scale g -> noise_fits (gp_noise g) M n ->
  (forall x i, (x < M)%nat -> (i < n)%nat -> 0 < noise_at (gp_noise g) None x i) ->
  exists q, (forall x, (x < M)%nat -> nearest_rows test train N x n (q x)) /\
  forall eps, 0 < eps -> exists L, 0 < L /\ forall cur,
    lk_ok K (feature_count train) cur [] -> (forall f, (f < feature_count train)%nat -> L <= scale_of (lk_def K) cur [] f) ->
    exists mean var,
      regress_any ls knn hnsw (Univariate (lib_model gamma kv g K cur)) test train w targets = Ok (mean, var) /\
      shape mean = M :: ex /\ shape var = [M] /\
      forall x, (x < M)%nat ->
        Rabs (at_ var [x] - gp_var_scale g / (1 + precision (gp_noise g) x n)) < eps /\
        forall e, inb ex e ->
          Rabs (at_ mean (x :: e) - weighted (gp_noise g) x n (fun j => at_ targets (q x j :: e)) / (1 + precision (gp_noise g) x n)) < eps.
Proof. exact long_any. Qed.
Print Assumptions C120_long.

(** With homoscedastic noise nu: the sum of the responses over n + nu (their average, shrunk by n / (n + nu)), and variance scale * nu / (n + nu). *)
Theorem C120_homoscedastic : forall nu x n y, 0 < nu ->
  weighted (HomoscedasticNoise nu) x n y / (1 + precision (HomoscedasticNoise nu) x n) = rsum n y / (INR n + nu) /\
  forall sc, sc / (1 + precision (HomoscedasticNoise nu) x n) = sc * nu / (INR n + nu).
Proof.
  intros nu x n y H. pose proof (pos_INR n) as P. unfold weighted, precision. cbn [noise_at].
  assert (W : rsum n (fun j => y j / nu) = rsum n y * / nu) by (rewrite <- rsum_scal_r; apply rsum_ext; intros; reflexivity).
  rewrite W, rsum_const. split; [|intros sc]; field; split; lra.
Qed.
Print Assumptions C120_homoscedastic.

(** When all length scales shrink (with positive noise), the predictions at rows that equal no training row tend to zero and their variances
    to the scale. *)
Theorem C120_short : forall gamma kv ls, exact_solver ls -> forall knn hnsw dist, sklearn_ok knn dist ->
  forall en method kw w g K test train targets N M n ex,
  lower method = "exact" -> euclidean_kw kw -> nn_init en (rows_of train) n method kw = Ok w -> (0 < n <= N /\ 0 < M)%nat ->
  dataset test M -> dataset train N -> ndim test = ndim train -> feature_count test = feature_count train ->
  shape targets = N :: ex -> no_coincidence ex [n] ->
  shape (gp_Kout g) = [] -> at_ (gp_Kout g) [] = 1 -> 0 <= gp_var_scale g -> noise_fits (gp_noise g) M n ->
  (forall x i, (x < M)%nat -> (i < n)%nat -> 0 < noise_at (gp_noise g) None x i) ->
  forall eps, 0 < eps -> exists L, 0 < L /\ forall cur,
    lk_ok K (feature_count train) cur [] -> (forall f, (f < feature_count train)%nat -> scale_of (lk_def K) cur [] f <= L) ->
    exists mean var,
      regress_any ls knn hnsw (Univariate (lib_model gamma kv g K cur)) test train w targets = Ok (mean, var) /\
      forall x, (x < M)%nat -> (forall a, (a < N)%nat -> ~ same_row test train x a) ->
        Rabs (at_ var [x] - gp_var_scale g) < eps /\ forall e, inb ex e -> Rabs (at_ mean (x :: e)) < eps.
Proof. exact short_any. Qed.
Print Assumptions C120_short.

(** The data of C80_sat with noise 1/2; the RBF kernel can have any length scale. *)
Definition ex120_gp : gp := mkGp (HomoscedasticNoise (1/2)) FixedScale 1 1 (mkNd [] (fun _ => 1)).
Example C120_sat : exists knn dist w, sklearn_ok knn dist /\ euclidean_kw [] /\ lower "Exact" = "exact" /\
  nn_init false (rows_of ex80_train) 2 "Exact" [] = Ok w /\ (0 < 2 <= 3 /\ 0 < 2)%nat /\
  dataset ex80_test 2 /\ dataset ex80_train 3 /\ ndim ex80_test = ndim ex80_train /\ feature_count ex80_test = feature_count ex80_train /\
  shape ex80_targets = [3%nat] /\ no_coincidence [] [2%nat] /\ noise_fits (gp_noise ex120_gp) 2 2 /\
  (forall x i, (x < 2)%nat -> (i < 2)%nat -> 0 < noise_at (gp_noise ex120_gp) None x i) /\
  (forall a, (a < 3)%nat -> ~ same_row ex80_test ex80_train 1 a) /\
  forall L, 0 < L -> lk_ok ex80_K (feature_count ex80_train) (fun _ => L) [] /\ forall f, scale_of (lk_def ex80_K) (fun _ => L) [] f = L.
Proof.
  exists ref_knn, (fun _ => ref_dist). eexists. split; [apply ref_ok|]. split; [unfold euclidean_kw; cbn; auto|]. split; [reflexivity|]. split; [reflexivity|].
  split; [lia|]. split; [left; reflexivity|]. split; [left; reflexivity|]. split; [reflexivity|]. split; [reflexivity|]. split; [reflexivity|].
  split; [apply no_coincidence_nil|]. split; [exact I|]. split; [intros; cbn; lra|]. split.
  - intros a Ha E. specialize (E O Nat.lt_0_1). unfold feature, ex80_test, ex80_train in E.
    destruct a as [|[|[|a]]]; [| | |lia]; cbn in E; lra.
  - intros L HL. split; [|intros f; reflexivity]. split; [reflexivity|]. split; [apply Nat.lt_0_1|]. split; [intros f _; cbn; lra|reflexivity].
Qed.
