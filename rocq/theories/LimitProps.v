(** Large and small noise (C124), and the rate of C120. *)
From Coq Require Import Lia Lra.
From Verif Require Import Base BaseFacts NdModel NdFacts RSum HyperModel NamedModel NamedSpec LinAlgModel LinAlgSpec LinAlgFacts Gauss
  GPModel NoiseModel MuyGPSModel GPSpec GPTheorems TensorModel TensorSpec KernelModel KernelSpec KernelCases
  NeighborsModel NeighborsSpec NeighborsProofs BatchProofs FlowModel FlowSpec FlowProofs PointwiseSpec LibSpec LibProofs
  MultiModel DriverModel WorkModel WorkSpec WorkProofs WorkLemmas WorkProps TrainSpec UqWorkProps LocalProps FarSpec
  SimplerSpec NativeSpec NativeProofs NativeProps FitSpec LimitProofs.
Local Open Scope R_scope.

(** * C124 *)
(** Large noise: with noise variance at least nu every mean is at most n Y / nu (Y bounds the responses, n counts neighbours), and every
    variance is within the factor 1 - n / nu of the prior variance. *)
Theorem C124_noisy : forall gamma kv ls, exact_solver ls -> forall knn hnsw dist, sklearn_ok knn dist ->
  forall en method kw w g K cur test train targets N M n ex nu Y,
  regression en method kw w test train targets N M n ex -> documented g K cur [] train N M n ->
  0 < nu -> noise_at_least (gp_noise g) nu M n ->
  (forall a e, (a < N)%nat -> inb ex e -> Rabs (at_ targets (a :: e)) <= Y) ->
  exists mean var,
    regress_any ls knn hnsw (Univariate (lib_model gamma kv g K cur)) test train w targets = Ok (mean, var) /\
    forall x, (x < M)%nat ->
      gp_var_scale g * (1 - INR n / nu) <= at_ var [x] <= gp_var_scale g /\
      forall e, inb ex e -> Rabs (at_ mean (x :: e)) <= INR n * Y / nu.
Proof. exact noisy_limit. Qed.
Print Assumptions C124_noisy.

(** C120, with a rate: with all length scales at least L and all rows within distance D, the mean is the precision-weighted mean of the
    neighbours' responses and a zero of precision one, up to 6 D n Y / (L nu), and the variance is the scale over one plus the sum of the
    precisions, up to the scale times 9 D n / (L nu). *)
Theorem C120_rate : forall gamma kv ls, exact_solver ls -> forall knn hnsw dist, sklearn_ok knn dist ->
  forall en method kw w g K cur test train targets N M n ex nu Y L D,
  regression en method kw w test train targets N M n ex -> documented g K cur [] train N M n ->
  0 < nu -> noise_at_least (gp_noise g) nu M n ->
  (forall a e, (a < N)%nat -> inb ex e -> Rabs (at_ targets (a :: e)) <= Y) ->
  0 < L -> (forall f, (f < feature_count train)%nat -> L <= scale_of (lk_def K) cur [] f) ->
  (forall a b, (a < N)%nat -> (b < N)%nat -> euclid (feature_count train) (feature train a) (feature train b) <= D) ->
  (forall x b, (x < M)%nat -> (b < N)%nat -> euclid (feature_count train) (feature test x) (feature train b) <= D) ->
  exists mean var q,
    regress_any ls knn hnsw (Univariate (lib_model gamma kv g K cur)) test train w targets = Ok (mean, var) /\
    forall x, (x < M)%nat -> nearest_rows test train N x n (q x) /\
      let precision := fun j => / noise_at (gp_noise g) None x j in
      Rabs (at_ var [x] - gp_var_scale g / (1 + rsum n precision)) <= gp_var_scale g * (9 * D * INR n / (L * nu)) /\
      forall e, inb ex e ->
        Rabs (at_ mean (x :: e) - rsum n (fun j => precision j * at_ targets (q x j :: e)) / (1 + rsum n precision)) <= 6 * D * INR n * Y / (L * nu).
Proof. exact flat_limit. Qed.
Print Assumptions C120_rate.

(** Small noise: at a test row equal to a training row (its neighbour j) the variance is at most the scale times the row's noise variance, and
    the squared difference of mean and response is at most the noise variance times the penalised misfit of any function of the kernel's
    space (that has the noise-free responses). So if the responses are those of a function, they are reproduced as the noise vanishes. *)
Theorem C124_training_error : forall gamma kv ls, exact_solver ls -> forall knn hnsw dist, sklearn_ok knn dist ->
  forall en method kw w g K cur test train targets N M n ex,
  regression en method kw w test train targets N M n ex -> documented g K cur [] train N M n ->
  exists mean var q,
    regress_any ls knn hnsw (Univariate (lib_model gamma kv g K cur)) test train w targets = Ok (mean, var) /\
    forall x, (x < M)%nat -> nearest_rows test train N x n (q x) /\
      forall j e, (j < n)%nat -> same_row test train x (q x j) -> inb ex e ->
        at_ var [x] <= gp_var_scale g * noise_at (gp_noise g) None x j /\
        forall p z a,
        let k := lk_cov gamma kv K (feature_count train) cur [] in
        let y := fun b => at_ targets (b :: e) in
        respects (gp_noise g) train x n (q x) y (span k p z a) ->
        (at_ mean (x :: e) - y (q x j)) ^ 2 <= noise_at (gp_noise g) None x j * penalised k (gp_noise g) train x n (q x) y p z a.
Proof. exact training_error. Qed.
Print Assumptions C124_training_error.

(** The hypotheses hold for the rows of C80_sat (the first test row is a training row), with noise 5. *)
Definition ex124_gp : gp := mkGp (HomoscedasticNoise 5) FixedScale 1 1 (mkNd [] (fun _ => 1)).
Example C124_sat : exists knn dist w, sklearn_ok knn dist /\
  regression false "exact" [] w ex80_test ex80_train ex80_targets 3 2 2 [] /\ documented ex124_gp ex80_K (fun _ => 100) [] ex80_train 3 2 2 /\
  noise_at_least (gp_noise ex124_gp) 5 2 2 /\ (forall a e, (a < 3)%nat -> inb [] e -> Rabs (at_ ex80_targets (a :: e)) <= 2) /\
  (forall f, (f < feature_count ex80_train)%nat -> 100 <= scale_of (lk_def ex80_K) (fun _ => 100) [] f) /\
  (forall a b, (a < 3)%nat -> (b < 3)%nat -> euclid (feature_count ex80_train) (feature ex80_train a) (feature ex80_train b) <= 3) /\
  (forall x b, (x < 2)%nat -> (b < 3)%nat -> euclid (feature_count ex80_train) (feature ex80_test x) (feature ex80_train b) <= 3) /\
  same_row ex80_test ex80_train 0 1.
Proof.
  destruct C116_sat as (knn & dist & w & H). decompose [and] H. exists ref_knn, (fun _ => ref_dist). eexists. split; [apply ref_ok|].
  match goal with HR : regression _ _ _ _ _ _ _ _ _ _ _ |- _ => destruct HR as (R1 & R2 & R3 & R4 & R5 & R6 & R7 & R8 & R9 & R10) end.
  assert (SQ : forall t, -3 <= t <= 3 -> sqrt (0 + t ^ 2) <= 3).
  { intros t Ht. rewrite Rplus_0_l. rewrite <- (sqrt_pow2 3) by lra. apply sqrt_le_1_alt. nra. }
  split.
  { split; [exact R1|]. split; [exact R2|]. split; [reflexivity|]. split; [lia|]. split; [exact R5|]. split; [exact R6|]. split; [exact R7|].
    split; [exact R8|]. split; [reflexivity|]. apply no_coincidence_nil. }
  split.
  { split; [split; [reflexivity|]; split; [apply Nat.lt_0_succ|]; split; [intros f _; cbn; lra|reflexivity]|].
    split; [reflexivity|]. split; [reflexivity|]. split; [cbn; lra|]. split; [exact Logic.I|]. left. intros; cbn; lra. }
  split; [intros x i _ _; cbn; lra|]. split.
  { intros a e Ha _. cbn [ex80_targets at_ hd]. rewrite Rabs_pos_eq by apply pos_INR. apply (le_INR a 2). lia. }
  split; [intros f _; cbn; lra|]. split; [|split].
  - intros a b Ha Hb. unfold euclid, sqdist, feature, feature_count, ex80_train. cbn [shape at_ rsum].
    destruct a as [|[|[|a]]]; try lia; destruct b as [|[|[|b]]]; try lia; apply SQ; lra.
  - intros x b Hx Hb. unfold euclid, sqdist, feature, feature_count, ex80_train, ex80_test. cbn [shape at_ rsum].
    destruct x as [|[|x]]; try lia; destruct b as [|[|[|b]]]; try lia; apply SQ; lra.
  - intros f Hf. reflexivity.
Qed.
