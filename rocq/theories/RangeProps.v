(** The range of predictions (C121). *)
From Coq Require Import Lia Lra.
From Verif Require Import Base NdModel NdFacts RSum LinAlgModel LinAlgSpec Gauss GPModel NoiseModel MuyGPSModel GPSpec GPTheorems
  TensorModel TensorSpec HyperModel NamedModel NamedSpec KernelModel KernelSpec FlowModel FlowSpec PointwiseSpec LibSpec
  MultiModel DriverModel NeighborsModel NeighborsSpec NeighborsProofs BatchProofs WorkModel WorkSpec WorkLemmas WorkProps
  SimplerSpec CoincideProps ExpoProps RangeSpec RangeProofs RangeProofs2.
Local Open Scope R_scope.
Local Open Scope string_scope.

(** * C121 *)
(** With the exponential kernel on one feature, and any noise: every predicted mean is a sum of the responses of the nearest rows with
    non-negative weights of total at most 1; the weights do not depend on the responses. *)
Theorem C121_weights_partial : forall gamma kv ls, exact_solver ls -> forall knn hnsw dist, sklearn_ok knn dist ->
  forall en method kw w g K cur kkw l test train N M n,
  lower method = "exact" -> euclidean_kw kw -> nn_init en (rows_of train) n method kw = Ok w -> (0 < n <= N /\ 0 < M)%nat ->
  dataset test M -> dataset train N -> ndim test = ndim train -> feature_count test = feature_count train -> feature_count train = 1%nat ->
  documented g K cur kkw train N M n -> exponential_kernel K cur kkw l ->
  exists q wt, (forall x, (x < M)%nat -> nearest_rows test train N x n (q x) /\ (forall j, (j < n)%nat -> 0 <= wt x j) /\ rsum n (wt x) <= 1) /\
    forall targets ex, shape targets = N :: ex -> no_coincidence ex [n] -> exists mean var,
      regress_any ls knn hnsw (Univariate (mkMm g (lk_call gamma kv K cur kkw))) test train w targets = Ok (mean, var) /\ shape mean = M :: ex /\
      forall x e, (x < M)%nat -> inb ex e -> at_ mean (x :: e) = rsum n (fun j => wt x j * at_ targets (q x j :: e)).
Proof. intros gamma kv ls EX knn hnsw dist Hsk. exact (range_weights gamma kv ls EX knn hnsw dist Hsk). Qed.
Print Assumptions C121_weights_partial.

(** So predictions stay between the least and the greatest response, or the prior mean 0: responses at least [lo <= 0] give predictions at
    least [lo] (non-negative ones from non-negative responses), responses at most [hi >= 0] give predictions at most [hi]. *)
Theorem C121_range_partial : forall gamma kv ls, exact_solver ls -> forall knn hnsw dist, sklearn_ok knn dist ->
  forall en method kw w g K cur kkw l test train targets N M n ex,
  regression en method kw w test train targets N M n ex -> documented g K cur kkw train N M n -> exponential_kernel K cur kkw l ->
  feature_count train = 1%nat ->
  exists mean var,
    regress_any ls knn hnsw (Univariate (mkMm g (lk_call gamma kv K cur kkw))) test train w targets = Ok (mean, var) /\ shape mean = M :: ex /\
    forall x e, (x < M)%nat -> inb ex e ->
      (forall lo, lo <= 0 -> (forall a, (a < N)%nat -> lo <= at_ targets (a :: e)) -> lo <= at_ mean (x :: e)) /\
      (forall hi, 0 <= hi -> (forall a, (a < N)%nat -> at_ targets (a :: e) <= hi) -> at_ mean (x :: e) <= hi).
Proof.
  intros gamma kv ls EX knn hnsw dist Hsk en method kw w g K cur kkw l test train targets N M n ex (Hm & He & Hi & Hn & D1 & D2 & ND & FC & HT & NC) DG XP F1.
  destruct (range_weights gamma kv ls EX knn hnsw dist Hsk en method kw w g K cur kkw l test train N M n Hm He Hi Hn D1 D2 ND FC F1 DG XP)
    as (q & wt & W & V). destruct (V targets ex HT NC) as (mean & var & E & Sm & Hv). exists mean, var. split; [exact E|]. split; [exact Sm|].
  intros x e Hx Hie. destruct (W x Hx) as ((QB & _) & W0 & W1). rewrite (Hv x e Hx Hie). split; intros b Hb H.
  - apply (proj1 (wsum_range n (wt x) (fun j => at_ targets (q x j :: e)) b 0 W0 W1)); auto.
  - apply (proj2 (wsum_range n (wt x) (fun j => at_ targets (q x j :: e)) 0 b W0 W1)); auto.
Qed.
Print Assumptions C121_range_partial.

(** And raising responses lowers no prediction. *)
Theorem C121_monotone_partial : forall gamma kv ls, exact_solver ls -> forall knn hnsw dist, sklearn_ok knn dist ->
  forall en method kw w g K cur kkw l test train targets targets' N M n ex,
  regression en method kw w test train targets N M n ex -> shape targets' = N :: ex ->
  documented g K cur kkw train N M n -> exponential_kernel K cur kkw l -> feature_count train = 1%nat ->
  exists mean var mean' var',
    regress_any ls knn hnsw (Univariate (mkMm g (lk_call gamma kv K cur kkw))) test train w targets = Ok (mean, var) /\
    regress_any ls knn hnsw (Univariate (mkMm g (lk_call gamma kv K cur kkw))) test train w targets' = Ok (mean', var') /\
    forall x e, (x < M)%nat -> inb ex e -> (forall a, (a < N)%nat -> at_ targets (a :: e) <= at_ targets' (a :: e)) ->
      at_ mean (x :: e) <= at_ mean' (x :: e).
Proof.
  intros gamma kv ls EX knn hnsw dist Hsk en method kw w g K cur kkw l test train targets targets' N M n ex (Hm & He & Hi & Hn & D1 & D2 & ND & FC & HT & NC) HT' DG XP F1.
  destruct (range_weights gamma kv ls EX knn hnsw dist Hsk en method kw w g K cur kkw l test train N M n Hm He Hi Hn D1 D2 ND FC F1 DG XP)
    as (q & wt & W & V). destruct (V targets ex HT NC) as (mean & var & E & Sm & Hv). destruct (V targets' ex HT' NC) as (mean' & var' & E' & Sm' & Hv').
  exists mean, var, mean', var'. split; [exact E|]. split; [exact E'|].
  intros x e Hx Hie LE. destruct (W x Hx) as ((QB & _) & W0 & W1). rewrite (Hv x e Hx Hie), (Hv' x e Hx Hie). apply rsum_le.
  intros j Hj. apply Rmult_le_compat_l; [apply W0; exact Hj|apply LE, QB; exact Hj].
Qed.
Print Assumptions C121_monotone_partial.

(** Not so with the RBF kernel: from the rows 0 and 1, with responses in [0, 1], the prediction at 2 is negative at every length scale for
    some such responses, ... *)
Theorem C121_rbf_negative_refuted : forall gamma kv ls, exact_solver ls -> forall l, 0 < l ->
  exists y mean var, (forall a, (a < 2)%nat -> 0 <= at_ y [a] <= 1) /\ shape y = [2%nat] /\
    regress_from_indices ls (lib_model gamma kv plain_gp rbf1 (fun _ => l)) (arange 1) both one_row two_rows y = Ok (mean, var) /\ at_ mean [0%nat] < 0.
Proof. intros gamma kv ls EX. exact (rbf_negative gamma kv ls EX). Qed.
Print Assumptions C121_rbf_negative_refuted.

(** ... and at length scale 2 it exceeds 3/2 for others. *)
Theorem C121_rbf_overshoot_refuted : forall gamma kv ls, exact_solver ls ->
  exists y mean var, (forall a, (a < 2)%nat -> 0 <= at_ y [a] <= 1) /\ shape y = [2%nat] /\
    regress_from_indices ls (lib_model gamma kv plain_gp rbf1 (fun _ => 2)) (arange 1) both one_row two_rows y = Ok (mean, var) /\ 3/2 < at_ mean [0%nat].
Proof. intros gamma kv ls EX. exact (rbf_overshoot gamma kv ls EX). Qed.
Print Assumptions C121_rbf_overshoot_refuted.

(** The hypotheses hold for rows 0, 1, 3 without noise (C115_sat), and for the rows 0, 0, 1 with noise 1 and two neighbours. *)
Definition ex121_gp : gp := mkGp (HomoscedasticNoise 1) FixedScale 3 3 (mkNd [] (fun _ => 1)).
Example C121_sat : exists knn dist w, sklearn_ok knn dist /\
  regression false "exact" [] w ex117_test ex117_train ex80_targets 3 1 2 [] /\
  documented ex121_gp ex115_K (fun _ => 2) [] ex117_train 3 1 2 /\ documented ex115_gp ex115_K (fun _ => 2) [] ex115_train 3 3 2 /\
  exponential_kernel ex115_K (fun _ => 2) [] 2 /\ feature_count ex117_train = 1%nat.
Proof.
  destruct C115_sat as (_ & _ & _ & _ & _ & _ & _ & DG & (XK & XS & _) & _).
  assert (FH : formula_for (mkParam (Fin (1/2)) (Fin 0, Fin 0) true) = Half).
  { unfold formula_for. cbn. repeat (destruct (Req_EM_T _ _); try lra; try reflexivity). }
  exists ref_knn, (fun _ => ref_dist). eexists. split; [apply ref_ok|]. split.
  { split; [reflexivity|]. split; [unfold euclidean_kw; cbn; auto|]. split; [reflexivity|]. split; [lia|]. split; [left; reflexivity|].
    split; [left; reflexivity|]. split; [reflexivity|]. split; [reflexivity|]. split; [reflexivity|apply no_coincidence_nil]. }
  split.
  { split; [split; [reflexivity|]; split; [cbn; lia|]; split; [intros f _; cbn; lra|]|].
    - split; [reflexivity|]. split; [reflexivity|]. rewrite FH. discriminate.
    - split; [reflexivity|]. split; [reflexivity|]. split; [cbn; lra|]. split; [exact I|].
      left. intros; cbn; lra. }
  split; [exact DG|]. split; [split; [exact XK|exact XS]|reflexivity].
Qed.
