(** Functions from the kernel's space (C116). *)
From Coq Require Import Lia Lra.
From Verif Require Import Base BaseFacts NdModel NdFacts RSum HyperModel NamedModel NamedSpec LinAlgModel LinAlgSpec LinAlgFacts Gauss
  GPModel NoiseModel MuyGPSModel GPSpec GPTheorems TensorModel TensorSpec KernelModel KernelSpec KernelCases
  NeighborsModel NeighborsSpec NeighborsProofs BatchProofs FlowModel FlowSpec FlowProofs PointwiseSpec LibSpec LibProofs
  MultiModel DriverModel WorkModel WorkSpec WorkProofs WorkLemmas WorkProps TrainSpec UqWorkProps FastWorkModel FastWorkProofs FastWorkProps
  SimplerSpec NativeSpec NativeProofs NativeProofs2.
Local Open Scope R_scope.
Local Open Scope string_scope.

(** * C116 *)
(** Let f be a function of the kernel's space. At every test row the squared error of the prediction for f is at most the predicted variance
    times the squared norm of f plus the noise-weighted squared deviations of the neighbours' responses from f. (The variance is divided by the
    variance scale, which does not affect the mean; neighbours without noise must have the exact response.) *)
Theorem C116_error_bound : forall gamma kv ls, exact_solver ls -> forall knn hnsw dist, sklearn_ok knn dist ->
  forall en method kw w g K cur test train targets N M n ex,
  regression en method kw w test train targets N M n ex -> documented g K cur [] train N M n ->
  exists mean var q,
    regress_any ls knn hnsw (Univariate (lib_model gamma kv g K cur)) test train w targets = Ok (mean, var) /\
    forall x, (x < M)%nat -> nearest_rows test train N x n (q x) /\
      forall p z a e, inb ex e ->
        let k := lk_cov gamma kv K (feature_count train) cur [] in
        let f := span k p z a in
        let y := fun b => at_ targets (b :: e) in
        (forall j, (j < n)%nat -> noise_at (gp_noise g) None x j = 0 -> y (q x j) = f (feature train (q x j))) ->
        gp_var_scale g * (at_ mean (x :: e) - f (feature test x)) ^ 2 <=
        (span_norm2 k p z a + misfit (gp_noise g) train x n (q x) y f) * at_ var [x].
Proof. exact error_bound. Qed.
Print Assumptions C116_error_bound.

(** The variance at a test row is at most the variance scale times (the noise variance plus six times the distance to any training row over
    the smallest length scale): it vanishes as training rows get close. *)
Theorem C116_variance_near : forall gamma kv ls, exact_solver ls -> forall knn hnsw dist, sklearn_ok knn dist ->
  forall en method kw w g K cur test train targets N M n ex L nu,
  regression en method kw w test train targets N M n ex -> documented g K cur [] train N M n ->
  0 < L -> (forall f, (f < feature_count train)%nat -> L <= scale_of (lk_def K) cur [] f) ->
  (forall x i, (x < M)%nat -> (i < n)%nat -> noise_at (gp_noise g) None x i <= nu) ->
  exists mean var,
    regress_any ls knn hnsw (Univariate (lib_model gamma kv g K cur)) test train w targets = Ok (mean, var) /\
    forall x b, (x < M)%nat -> (b < N)%nat ->
      at_ var [x] <= gp_var_scale g * (6 * euclid (feature_count train) (feature test x) (feature train b) / L + nu).
Proof. exact variance_near. Qed.
Print Assumptions C116_variance_near.

(** Convergence: trained without noise on the values of a function of the kernel's space, the squared error at a test row is at most six times
    the squared norm times the distance to any training row over the smallest length scale, whatever the number of neighbours. *)
Theorem C116_rate : forall gamma kv ls, exact_solver ls -> forall knn hnsw dist, sklearn_ok knn dist ->
  forall en method kw w g K cur test train targets N M n ex L p z a e,
  regression en method kw w test train targets N M n ex -> documented g K cur [] train N M n ->
  0 < L -> (forall f, (f < feature_count train)%nat -> L <= scale_of (lk_def K) cur [] f) ->
  (forall x i, (x < M)%nat -> (i < n)%nat -> noise_at (gp_noise g) None x i = 0) -> 0 < gp_var_scale g -> inb ex e ->
  let k := lk_cov gamma kv K (feature_count train) cur [] in
  let f := span k p z a in
  (forall b, (b < N)%nat -> at_ targets (b :: e) = f (feature train b)) ->
  exists mean var,
    regress_any ls knn hnsw (Univariate (lib_model gamma kv g K cur)) test train w targets = Ok (mean, var) /\
    forall x b, (x < M)%nat -> (b < N)%nat ->
      (at_ mean (x :: e) - f (feature test x)) ^ 2 <= 6 * span_norm2 k p z a * euclid (feature_count train) (feature test x) (feature train b) / L.
Proof. exact rate. Qed.
Print Assumptions C116_rate.

(** Fast prediction (with one update of the index matrix, C86) converges at the same rate, although it uses the neighbours of the closest
    training row instead of those of the test row. *)
Theorem C116_fast_rate : forall (gamma : R -> R) (kv : R -> R -> R) ls, exact_solver ls -> forall knn hnsw dist, sklearn_ok knn dist ->
  forall en method kw w g K cur test train targets N M n r L p z a s,
  lower method = "exact" -> euclidean_kw kw -> nn_init en (rows_of train) n method kw = Ok w -> (1 < n)%nat -> (n + 1 <= N /\ 0 < M)%nat ->
  dataset test M -> dataset train N -> ndim test = ndim train -> feature_count test = feature_count train -> shape targets = [N; r] ->
  M <> 1%nat -> distinct_rows train N (fun i => i) ->
  lk_ok K (feature_count train) cur [] -> noise_fits (gp_noise g) N n -> (forall x i, noise_at (gp_noise g) None x i = 0) ->
  0 < L -> (forall f, (f < feature_count train)%nat -> L <= scale_of (lk_def K) cur [] f) -> (s < r)%nat ->
  let k := lk_cov gamma kv K (feature_count train) cur [] in
  let f := span k p z a in
  (forall b, (b < N)%nat -> at_ targets [b; s] = f (feature train b)) ->
  exists mean,
    work_fast_manual ls knn hnsw (lib_model gamma kv g K cur) test train w targets = Ok mean /\
    forall x b, (x < M)%nat -> (b < N)%nat ->
      (at_ mean (out_idx r x s) - f (feature test x)) ^ 2 <= 6 * span_norm2 k p z a * euclid (feature_count train) (feature test x) (feature train b) / L.
Proof. intros gamma kv ls EX knn hnsw dist SK. exact (fast_rate gamma kv ls EX knn hnsw dist SK). Qed.
Print Assumptions C116_fast_rate.

(** The hypotheses hold for the rows of C80_sat, an RBF kernel without noise and the responses 2 k(v - 7). *)
Definition ex116_K : libkernel := LRbf (Iso F2 (mkNamed "length_scale" 0)).
Definition ex116_z (_ _ : nat) : R := 7.
Definition ex116_f : (nat -> R) -> R := span (lk_cov (fun _ => 0) (fun _ _ => 0) ex116_K 1 (fun _ => 2) []) 1 ex116_z (fun _ => 2).
Definition ex116_targets : nd R := mkNd [3%nat] (fun idx => ex116_f (feature ex80_train (hd O idx))).

Example C116_sat : exists knn dist w, sklearn_ok knn dist /\
  regression false "exact" [] w ex80_test ex80_train ex116_targets 3 2 2 [] /\
  documented ex80_gp ex116_K (fun _ => 2) [] ex80_train 3 2 2 /\
  (forall f, (f < feature_count ex80_train)%nat -> 2 <= scale_of (lk_def ex116_K) (fun _ => 2) [] f) /\
  (forall x i, noise_at (gp_noise ex80_gp) None x i = 0) /\ 0 < gp_var_scale ex80_gp /\ inb [] [] /\
  (forall b, (b < 3)%nat -> at_ ex116_targets [b] = ex116_f (feature ex80_train b)) /\
  span_norm2 (lk_cov (fun _ => 0) (fun _ _ => 0) ex116_K 1 (fun _ => 2) []) 1 ex116_z (fun _ => 2) = 4.
Proof.
  destruct C80_sat as (knn & dist & w & w' & H). decompose [and] H.
  exists ref_knn, (fun _ => ref_dist). eexists. split; [apply ref_ok|].
  split.
  { split; [reflexivity|]. split; [unfold euclidean_kw; cbn; auto|]. split; [reflexivity|]. split; [lia|]. split; [assumption|].
    split; [assumption|]. split; [reflexivity|]. split; [reflexivity|]. split; [reflexivity|]. apply no_coincidence_nil. }
  split.
  { split; [split; [reflexivity|]; split; [apply Nat.lt_0_succ|]; split; [intros f _; cbn; lra|reflexivity]|].
    split; [reflexivity|]. split; [reflexivity|]. split; [cbn; lra|]. split; assumption. }
  split; [intros f _; cbn; lra|]. split; [reflexivity|]. split; [cbn; lra|]. split; [apply inb_nil|]. split; [reflexivity|].
  unfold span_norm2. cbn [rsum]. rewrite (lk_cov_0 (fun _ => 0) (fun _ _ => 0) ex116_K 1 (fun _ => 2) [] ex116_z 0); [lra|].
  split; [reflexivity|]. split; [apply Nat.lt_0_succ|]. split; [intros f _; cbn; lra|reflexivity].
Qed.

(** The hypotheses of C116_fast_rate hold for the rows of C86_sat and the same function. *)
Definition ex116_f2 : (nat -> R) -> R := span (lk_cov (fun _ => 0) (fun _ _ => 0) ex80_K 2 (fun _ => 1) []) 1 ex116_z (fun _ => 2).
Definition ex116_targets2 : nd R := mkNd [4; 1]%nat (fun idx => ex116_f2 (feature ex85_train (hd O idx))).
Example C116_fast_sat : exists knn dist w, sklearn_ok knn dist /\ nn_init false (rows_of ex85_train) 3 "exact" [] = Ok w /\
  dataset ex85_test 2 /\ dataset ex85_train 4 /\ ndim ex85_test = ndim ex85_train /\ feature_count ex85_test = feature_count ex85_train /\
  distinct_rows ex85_train 4 (fun i => i) /\ lk_ok ex80_K (feature_count ex85_train) (fun _ => 1) [] /\ noise_fits (gp_noise ex80_gp) 4 3 /\
  (forall x i, noise_at (gp_noise ex80_gp) None x i = 0) /\ (forall f, (f < feature_count ex85_train)%nat -> 1 <= scale_of (lk_def ex80_K) (fun _ => 1) [] f) /\
  (forall b, (b < 4)%nat -> at_ ex116_targets2 [b; 0%nat] = ex116_f2 (feature ex85_train b)).
Proof.
  destruct C86_sat as (knn & dist & w & w' & H). decompose [and] H. exists knn, dist, w. split; [assumption|]. split; [assumption|].
  split; [right; eexists; reflexivity|]. split; [right; eexists; reflexivity|]. split; [reflexivity|]. split; [reflexivity|]. split; [assumption|].
  split; [assumption|]. split; [assumption|]. split; [reflexivity|]. split; [intros f _; cbn; lra|reflexivity].
Qed.
