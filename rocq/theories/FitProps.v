(** Predictions are penalised least-squares fits (C123). *)
From Coq Require Import Lia Lra.
From Verif Require Import Base BaseFacts NdModel NdFacts RSum HyperModel NamedModel NamedSpec LinAlgModel LinAlgSpec LinAlgFacts Gauss
  GPModel NoiseModel MuyGPSModel GPSpec GPTheorems TensorModel TensorSpec KernelModel KernelSpec KernelCases
  NeighborsModel NeighborsSpec NeighborsProofs BatchProofs FlowModel FlowSpec FlowProofs PointwiseSpec LibSpec LibProofs
  MultiModel DriverModel WorkModel WorkSpec WorkProofs WorkLemmas WorkProps TrainSpec UqWorkProps FastWorkProps CalibModel CalibProps
  SmoothSpec SimplerSpec NativeSpec NativeProps FastWorkModel FastWorkProofs FitSpec FitProofs FitProofs2 FitProofs3 FitProofs4.
Local Open Scope R_scope.

(** * C123 *)
(** The prediction at a test row is the value there of a function of the kernel's space centred at its neighbours, which fits their responses
    best: it has the least squared norm plus noise-weighted squared deviations among all functions of the space that take the noise-free
    responses exactly, and it is the only such function. *)
Theorem C123_fit : forall gamma kv ls, exact_solver ls -> forall knn hnsw dist, sklearn_ok knn dist ->
  forall en method kw w g K cur test train targets N M n ex,
  regression en method kw w test train targets N M n ex -> documented g K cur [] train N M n ->
  exists mean var q a,
    regress_any ls knn hnsw (Univariate (lib_model gamma kv g K cur)) test train w targets = Ok (mean, var) /\
    forall x, (x < M)%nat -> nearest_rows test train N x n (q x) /\
      forall e, inb ex e ->
        let k := lk_cov gamma kv K (feature_count train) cur [] in
        let y := fun b => at_ targets (b :: e) in
        let z := fun j => feature train (q x j) in
        at_ mean (x :: e) = span k n z (a x e) (feature test x) /\
        best_fit k (gp_noise g) train x n (q x) y n z (a x e) /\
        penalised k (gp_noise g) train x n (q x) y n z (a x e) = rsum n (fun j => a x e j * y (q x j)).
Proof. exact fit. Qed.
Print Assumptions C123_fit.

(** Without noise the prediction is the value of the smoothest interpolant: the function of least norm with the neighbours' responses. *)
Theorem C123_interpolant : forall gamma kv ls, exact_solver ls -> forall knn hnsw dist, sklearn_ok knn dist ->
  forall en method kw w g K cur test train targets N M n ex,
  regression en method kw w test train targets N M n ex -> documented g K cur [] train N M n ->
  (forall x i, (x < M)%nat -> (i < n)%nat -> noise_at (gp_noise g) None x i = 0) ->
  exists mean var q a,
    regress_any ls knn hnsw (Univariate (lib_model gamma kv g K cur)) test train w targets = Ok (mean, var) /\
    forall x, (x < M)%nat -> nearest_rows test train N x n (q x) /\
      forall e, inb ex e ->
        let k := lk_cov gamma kv K (feature_count train) cur [] in
        let z := fun j => feature train (q x j) in
        let h := span k n z (a x e) in
        at_ mean (x :: e) = h (feature test x) /\
        (forall j, (j < n)%nat -> h (z j) = at_ targets (q x j :: e)) /\
        forall p' z' a', (forall j, (j < n)%nat -> span k p' z' a' (z j) = at_ targets (q x j :: e)) ->
          span_norm2 k n z (a x e) <= span_norm2 k p' z' a' /\
          (span_norm2 k p' z' a' = span_norm2 k n z (a x e) -> forall v, span k p' z' a' v = h v).
Proof. exact interpolant. Qed.
Print Assumptions C123_interpolant.

(** With every training row as a neighbour and uniform noise, one function fits all training rows, and every prediction is its value. *)
Theorem C123_all_rows : forall gamma kv ls, exact_solver ls -> forall knn hnsw dist, sklearn_ok knn dist ->
  forall en method kw w g K cur test train targets N M ex,
  regression en method kw w test train targets N M N ex -> documented g K cur [] train N M N -> uniform_noise (gp_noise g) ->
  exists mean var a,
    regress_any ls knn hnsw (Univariate (lib_model gamma kv g K cur)) test train w targets = Ok (mean, var) /\
    forall e, inb ex e ->
      let k := lk_cov gamma kv K (feature_count train) cur [] in
      let y := fun b => at_ targets (b :: e) in
      best_fit k (gp_noise g) train 0 N (fun b => b) y N (feature train) (a e) /\
      forall x, (x < M)%nat -> at_ mean (x :: e) = span k N (feature train) (a e) (feature test x).
Proof. exact fit_all_rows. Qed.
Print Assumptions C123_all_rows.

(** The variance is a sharp bound: among the functions compatible with responses that are all zero, the squared value at the test row is at
    most energy times variance (over the variance scale), and some function attains this. *)
Theorem C123_worst_case : forall gamma kv ls, exact_solver ls -> forall knn hnsw dist, sklearn_ok knn dist ->
  forall en method kw w g K cur test train targets N M n ex,
  regression en method kw w test train targets N M n ex -> documented g K cur [] train N M n ->
  exists mean var q,
    regress_any ls knn hnsw (Univariate (lib_model gamma kv g K cur)) test train w targets = Ok (mean, var) /\
    forall x, (x < M)%nat -> nearest_rows test train N x n (q x) /\
      let k := lk_cov gamma kv K (feature_count train) cur [] in
      let null := respects (gp_noise g) train x n (q x) (fun _ => 0) in
      let energy := penalised k (gp_noise g) train x n (q x) (fun _ => 0) in
      (forall p z a, null (span k p z a) -> gp_var_scale g * span k p z a (feature test x) ^ 2 <= energy p z a * at_ var [x]) /\
      exists p z a, null (span k p z a) /\ energy p z a = span k p z a (feature test x) /\ at_ var [x] = gp_var_scale g * span k p z a (feature test x).
Proof. exact worst. Qed.
Print Assumptions C123_worst_case.

(** The analytic scale (one iteration) is the mean, over the batch rows and per neighbour, of the penalised misfit of the best fits; it is
    positive unless every listed response is zero, in which case the optimization raises. *)
Theorem C123_scale : forall gamma kv ls, exact_solver ls ->
  forall g it draws K cur nn train targets N b w q,
  gp_kind g = AnalyticScale it -> (it <= 1)%nat -> (0 < b)%nat -> (0 < w)%nat ->
  lk_ok K (feature_count train) cur [] -> dataset train N -> shape targets = [N] -> index_matrix nn b w N q ->
  noise_fits (gp_noise g) b w -> well_posed (gp_noise g) train b w q ->
  let k := lk_cov gamma kv K (feature_count train) cur [] in
  let y := fun c => at_ targets [c] in
  let z := fun x j => feature train (q x j) in
  exists s a,
    (forall x, (x < b)%nat -> best_fit k (gp_noise g) train x w (q x) y w (z x) (a x)) /\
    s = rsum b (fun x => penalised k (gp_noise g) train x w (q x) y w (z x) (a x)) / (INR b * INR w) /\
    0 <= s /\ (0 < s <-> exists x i, (x < b)%nat /\ (i < w)%nat /\ y (q x i) <> 0) /\
    (s = 0 -> optimize_scale_from_indices ls (lib_model gamma kv g K cur) draws nn train targets = Err ValueError) /\
    (0 < s -> exists g', optimize_scale_from_indices ls (lib_model gamma kv g K cur) draws nn train targets = Ok (lib_model gamma kv g' K cur) /\
       gp_var_scale g' = s /\ gp_noise g' = gp_noise g /\ gp_kind g' = gp_kind g /\ gp_Kout g' = gp_Kout g).
Proof. exact scale_energy. Qed.
Print Assumptions C123_scale.

(** Fast prediction (with one update of the index matrix, C86) evaluates one fixed function per training row: the best fit to the row and its
    nearest other rows. Every test row, in every test set, gets the value of the function of a closest training row. *)
Theorem C123_fast : forall (gamma : R -> R) (kv : R -> R -> R) ls, exact_solver ls -> forall knn hnsw dist, sklearn_ok knn dist ->
  forall en method kw w g K cur train targets N n r,
  lower method = "exact"%string -> euclidean_kw kw -> nn_init en (rows_of train) n method kw = Ok w -> (1 < n)%nat -> (n + 1 <= N)%nat ->
  dataset train N -> shape targets = [N; r] -> distinct_rows train N (fun i => i) ->
  lk_ok K (feature_count train) cur [] -> noise_fits (gp_noise g) N n -> (forall x i, 0 <= noise_at (gp_noise g) None x i) ->
  let k := lk_cov gamma kv K (feature_count train) cur [] in
  let z := fun (q : nat -> nat -> nat) c j => feature train (with_self q c j) in
  exists q a,
    (forall c, (c < N)%nat -> nearest_others train N c n (q c)) /\
    (forall c s, (c < N)%nat -> (s < r)%nat -> best_fit k (gp_noise g) train c n (with_self q c) (fun b => at_ targets [b; s]) n (z q c) (a c s)) /\
    forall test M, (0 < M)%nat -> M <> 1%nat -> dataset test M -> ndim test = ndim train -> feature_count test = feature_count train ->
    exists mean, work_fast_manual ls knn hnsw (lib_model gamma kv g K cur) test train w targets = Ok mean /\
      forall x, (x < M)%nat -> exists c, (c < N)%nat /\ (forall b, (b < N)%nat -> row_dist test train x c <= row_dist test train x b) /\
        forall s, (s < r)%nat -> at_ mean (out_idx r x s) = span k n (z q c) (a c s) (feature test x).
Proof. intros gamma kv ls EX knn hnsw dist SK. exact (fast_fit gamma kv ls EX knn hnsw dist SK). Qed.
Print Assumptions C123_fast.

(** The hypotheses of C123_fast hold for the rows of C86_sat. *)
Example C123_fast_sat : exists knn dist w, sklearn_ok knn dist /\ nn_init false (rows_of ex85_train) 3 "exact" [] = Ok w /\
  dataset ex85_test 2 /\ dataset ex85_train 4 /\ ndim ex85_test = ndim ex85_train /\ feature_count ex85_test = feature_count ex85_train /\
  distinct_rows ex85_train 4 (fun i => i) /\ lk_ok ex80_K (feature_count ex85_train) (fun _ => 1) [] /\ noise_fits (gp_noise ex80_gp) 4 3 /\
  (forall x i, 0 <= noise_at (gp_noise ex80_gp) None x i) /\ shape ex116_targets2 = [4; 1]%nat.
Proof.
  destruct C116_fast_sat as (knn & dist & w & H). decompose [and] H. exists knn, dist, w. repeat (split; [assumption|]). split; [intros; cbn; lra|reflexivity].
Qed.

(** The hypotheses of C123_fit, C123_interpolant and C123_worst_case are those of C116_sat (two of three training rows as neighbours, no noise). *)
Example C123_sat : exists knn dist w, sklearn_ok knn dist /\
  regression false "exact" [] w ex80_test ex80_train ex116_targets 3 2 2 [] /\
  documented ex80_gp ex116_K (fun _ => 2) [] ex80_train 3 2 2 /\
  (forall x i, noise_at (gp_noise ex80_gp) None x i = 0).
Proof.
  destruct C116_sat as (knn & dist & w & H). decompose [and] H. exists knn, dist, w. repeat (split; [assumption|]). assumption.
Qed.

(** All three rows as neighbours. *)
Example C123_all_rows_sat : exists knn dist w, sklearn_ok knn dist /\
  regression false "exact" [] w ex80_test ex80_train ex116_targets 3 2 3 [] /\
  documented ex80_gp ex116_K (fun _ => 2) [] ex80_train 3 2 3 /\ uniform_noise (gp_noise ex80_gp).
Proof.
  destruct C116_sat as (knn & dist & w & H). decompose [and] H. exists ref_knn, (fun _ => ref_dist). eexists. split; [apply ref_ok|].
  match goal with HR : regression _ _ _ _ _ _ _ _ _ _ _ |- _ => destruct HR as (R1 & R2 & R3 & R4 & R5 & R6 & R7 & R8 & R9 & R10) end.
  match goal with HD : documented _ _ _ _ _ _ _ _ |- _ => destruct HD as (O1 & O2 & O3 & O4 & O5 & O6) end.
  split.
  { split; [exact R1|]. split; [exact R2|]. split; [reflexivity|]. split; [lia|]. split; [exact R5|]. split; [exact R6|]. split; [exact R7|].
    split; [exact R8|]. split; [exact R9|]. apply no_coincidence_nil. }
  split.
  { split; [exact O1|]. split; [exact O2|]. split; [exact O3|]. split; [exact O4|]. split; [exact Logic.I|].
    right. split; [intros; cbn; lra|]. destruct O6 as [P|[_ DR]]; [|exact DR].
    exfalso. specialize (P 0%nat 0%nat ltac:(lia) ltac:(lia)). cbn in P. lra. }
  left. reflexivity.
Qed.

(** The hypotheses of C123_scale: the single row of C107_sat, with the analytic scale. *)
Example C123_scale_sat :
  gp_kind ex107_gp = AnalyticScale 1 /\ lk_ok ex80_K (feature_count ex107_train) (fun _ => 1) [] /\ dataset ex107_train 1 /\
  index_matrix ex107_nn 1 1 1 (fun _ _ => 0%nat) /\ noise_fits (gp_noise ex107_gp) 1 1 /\ well_posed (gp_noise ex107_gp) ex107_train 1 1 (fun _ _ => 0%nat).
Proof.
  destruct (C107_sat (fun _ => 0) (fun _ _ => 0)) as (f & H). cbv zeta in H. decompose [and] H. split; [reflexivity|]. split; [assumption|].
  split; [left; reflexivity|]. split; [assumption|]. split; [exact Logic.I|]. assumption.
Qed.

(** * C103 for fast prediction *)
(** Fast predictions at test rows with the same single closest training row differ by at most the root of 6 E d / L: d their distance, L the
    least length scale, and E depends on the training row and response only, at most the squared norm of any function with the responses. *)
Theorem C103_fast : forall (gamma : R -> R) (kv : R -> R -> R) ls, exact_solver ls -> forall knn hnsw dist, sklearn_ok knn dist ->
  forall en method kw w g K cur train targets N n r L,
  lower method = "exact"%string -> euclidean_kw kw -> nn_init en (rows_of train) n method kw = Ok w -> (1 < n)%nat -> (n + 1 <= N)%nat ->
  dataset train N -> shape targets = [N; r] -> distinct_rows train N (fun i => i) ->
  lk_ok K (feature_count train) cur [] -> noise_fits (gp_noise g) N n -> (forall x i, 0 <= noise_at (gp_noise g) None x i) ->
  0 < L -> (forall f, (f < feature_count train)%nat -> L <= scale_of (lk_def K) cur [] f) ->
  exists E : nat -> nat -> R,
    (forall c s p z a, (c < N)%nat -> (s < r)%nat -> let k := lk_cov gamma kv K (feature_count train) cur [] in
       (forall b, (b < N)%nat -> at_ targets [b; s] = span k p z a (feature train b)) -> E c s <= span_norm2 k p z a) /\
    forall test test' M M', (1 < M)%nat -> (1 < M')%nat -> dataset test M -> dataset test' M' -> ndim test = ndim train -> ndim test' = ndim train ->
      feature_count test = feature_count train -> feature_count test' = feature_count train ->
    exists mean mean', work_fast_manual ls knn hnsw (lib_model gamma kv g K cur) test train w targets = Ok mean /\
      work_fast_manual ls knn hnsw (lib_model gamma kv g K cur) test' train w targets = Ok mean' /\
      forall x x' c s, (x < M)%nat -> (x' < M')%nat -> (c < N)%nat -> (s < r)%nat ->
        (forall b, (b < N)%nat -> b <> c -> row_dist test train x c < row_dist test train x b) ->
        (forall b, (b < N)%nat -> b <> c -> row_dist test' train x' c < row_dist test' train x' b) ->
        (at_ mean' (out_idx r x' s) - at_ mean (out_idx r x s)) ^ 2 <= 6 * E c s * point_dist test' test (feature_count train) x' x / L.
Proof. intros gamma kv ls EX knn hnsw dist SK. exact (fast_smooth gamma kv ls EX knn hnsw dist SK). Qed.
Print Assumptions C103_fast.

(** The hypotheses are those of C123_fast_sat with least length scale 1; the first test row has a single closest training row. *)
Example C103_fast_sat : (forall f, (f < feature_count ex85_train)%nat -> 1 <= scale_of (lk_def ex80_K) (fun _ => 1) [] f) /\
  forall b, (b < 4)%nat -> b <> 0%nat -> row_dist ex85_test ex85_train 0 0 < row_dist ex85_test ex85_train 0 b.
Proof.
  split; [intros f _; cbn; lra|]. intros b Hb NB. unfold row_dist.
  unfold sqdist, feature, feature_count, ex85_test, ex85_train. cbn [shape at_ rsum].
  destruct b as [|[|[|[|b]]]]; try lia; cbn [INR]; lra.
Qed.
