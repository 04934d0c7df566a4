(** C86: the complete fast-prediction workflow. *)
From Coq Require Import Lia Lra.
From Verif Require Import Base NdModel RSum LinAlgModel LinAlgSpec GPModel NoiseModel MuyGPSModel GPSpec
  TensorModel TensorSpec KernelModel KernelSpec KernelCases FlowModel FlowSpec PointwiseSpec LibSpec LibProofs MultiModel DriverModel
  HyperModel HyperSpec NamedModel NeighborsModel NeighborsSpec NeighborsProofs BatchProofs
  WorkModel WorkSpec WorkProofs WorkLemmas WorkProps TrainSpec UqWorkProps FastWorkModel FastWorkProofs.
Local Open Scope R_scope.
Local Open Scope string_scope.

(** With one update of the index matrix the workflow is right end to end: each test row is predicted by kriging, from the training row
    nearest to it and the n-1 training rows nearest to that one; without noise the training data are reproduced. *)
Theorem C86_single_update : forall (gamma : R -> R) (kv : R -> R -> R) ls, exact_solver ls -> forall knn hnsw dist, sklearn_ok knn dist ->
  forall en method kw w g K cur test train targets N M n r,
  lower method = "exact" -> euclidean_kw kw -> nn_init en (rows_of train) n method kw = Ok w -> (1 < n)%nat -> (n + 1 <= N /\ 0 < M)%nat ->
  dataset test M -> dataset train N -> ndim test = ndim train -> feature_count test = feature_count train -> shape targets = [N; r] ->
  M <> 1%nat -> distinct_rows train N (fun i => i) ->
  lk_ok K (feature_count train) cur [] -> noise_fits (gp_noise g) N n -> (forall x i, 0 <= noise_at (gp_noise g) None x i) ->
  let k := lk_cov gamma kv K (feature_count train) cur [] in
  exists mean q p,
    work_fast_manual ls knn hnsw (lib_model gamma kv g K cur) test train w targets = Ok mean /\
    shape mean = (if (r =? 1)%nat then [M] else [M; r]) /\
    (forall c, (c < N)%nat -> nearest_others train N c n (q c)) /\
    (forall x, (x < M)%nat -> nearest_rows test train N x n (p x) /\
       forall s, (s < r)%nat ->
         kriging n (nbr_matrix k (gp_noise g) train (with_self q) (p x O))
           (fun j => kcov k test train x (with_self q (p x O) j)) (fun j => at_ targets [with_self q (p x O) j; s])
           (at_ mean (out_idx r x s))) /\
    ((forall x i, noise_at (gp_noise g) None x i = 0) -> forall x a s, (x < M)%nat -> (a < N)%nat -> same_row test train x a -> (s < r)%nat ->
       at_ mean (out_idx r x s) = at_ targets [a; s]).
Proof.
  intros gamma kv ls EX knn hnsw dist Hsk en method kw w g K cur test train targets N M n r.
  apply (fast_manual_uni gamma kv ls EX knn hnsw dist Hsk).
Qed.
Print Assumptions C86_single_update.

(** fast_posterior_mean_any returns the right coefficients of every training row ... *)
Theorem C86_coefficients_partial : forall (gamma : R -> R) (kv : R -> R -> R) ls, exact_solver ls -> forall knn hnsw dist, sklearn_ok knn dist ->
  forall en method kw w g K cur test train targets F N M n r,
  lower method = "exact" -> euclidean_kw kw -> nn_init en (rows_of train) n method kw = Ok w -> (1 < n)%nat -> (n + 1 <= N /\ 0 < M)%nat ->
  shape test = [M; F] -> shape train = [N; F] -> shape targets = [N; r] -> M <> 1%nat -> distinct_rows train N (fun i => i) ->
  lk_ok K F cur [] -> noise_fits (gp_noise g) N n -> (forall x i, 0 <= noise_at (gp_noise g) None x i) ->
  exists mean C q,
    work_fast_any ls knn hnsw (Univariate (lib_model gamma kv g K cur)) test train w targets = Ok (mean, C) /\
    shape C = (if (r =? 1)%nat then [N; n] else [N; n; r]) /\
    (forall c, (c < N)%nat -> nearest_others train N c n (q c) /\
       forall s, (s < r)%nat ->
         solves n (nbr_matrix (lk_cov gamma kv K F cur []) (gp_noise g) train (with_self q) c)
           (fun j => if (j <? n)%nat then at_ C (if (r =? 1)%nat then [c; j] else [c; j; s]) else 0)
           (fun j => at_ targets [with_self q c j; s])).
Proof.
  intros gamma kv ls EX knn hnsw dist Hsk en method kw w g K cur test train targets F N M n r Hm He Hi Hn1 Hn St Sx HT HM DR OK NF NP.
  destruct (fast_any_uni gamma kv ls EX knn hnsw dist Hsk en method kw w g K cur test train targets F N M n r) as (mean & C & q & p & coef & E & _ & SC & HC & _); auto.
  exists mean, C, q. split; [exact E|]. split; [exact SC|]. intros c Hc. destruct (HC c Hc) as [A B]. split; [exact A|]. intros s Hs.
  destruct (B s Hs) as [B1 B2]. intros i Hi'. rewrite <- (B2 i Hi'). apply rsum_ext. intros j Hj. destruct (Nat.ltb_spec j n); [|lia].
  rewrite B1 by auto. reflexivity.
Qed.
Print Assumptions C86_coefficients_partial.

(** ... but multiplies the j-th of them with the kernel value of the j-th of c, c, q c 0, ... instead of c, q c 0, ...: *)
Theorem C86_packaged_refuted : forall (gamma : R -> R) (kv : R -> R -> R) ls, exact_solver ls -> forall knn hnsw dist, sklearn_ok knn dist ->
  forall en method kw w g K cur test train targets F N M n r,
  lower method = "exact" -> euclidean_kw kw -> nn_init en (rows_of train) n method kw = Ok w -> (1 < n)%nat -> (n + 1 <= N /\ 0 < M)%nat ->
  shape test = [M; F] -> shape train = [N; F] -> shape targets = [N; r] -> M <> 1%nat -> distinct_rows train N (fun i => i) ->
  lk_ok K F cur [] -> noise_fits (gp_noise g) N n -> (forall x i, 0 <= noise_at (gp_noise g) None x i) ->
  exists mean C q p coef,
    work_fast_any ls knn hnsw (Univariate (lib_model gamma kv g K cur)) test train w targets = Ok (mean, C) /\
    shape mean = (if (r =? 1)%nat then [M] else [M; r]) /\ shape C = (if (r =? 1)%nat then [N; n] else [N; n; r]) /\
    (forall c, (c < N)%nat -> nearest_others train N c n (q c) /\
       forall s, (s < r)%nat ->
         (forall j, (j < n)%nat -> at_ C (if (r =? 1)%nat then [c; j] else [c; j; s]) = coef c j s) /\
         solves n (nbr_matrix (lk_cov gamma kv K F cur []) (gp_noise g) train (with_self q) c) (fun j => coef c j s)
           (fun j => at_ targets [with_self q c j; s])) /\
    (forall x, (x < M)%nat -> nearest_rows test train N x n (p x) /\
       forall s, (s < r)%nat -> at_ mean (out_idx r x s) =
         rsum n (fun j => kcov (lk_cov gamma kv K F cur []) test train x (with_self (with_self q) (p x O) j) * coef (p x O) j s)).
Proof.
  intros gamma kv ls EX knn hnsw dist Hsk en method kw w g K cur test train targets F N M n r.
  apply (fast_any_uni gamma kv ls EX knn hnsw dist Hsk).
Qed.
Print Assumptions C86_packaged_refuted.

(** with two neighbours and no noise, the prediction at a training row a is not its response y_a but (y_a + y_b) / (1 + k(a, b)), for its
    nearest other row b -- for every data set. *)
Theorem C86_training_row_refuted : forall (gamma : R -> R) (kv : R -> R -> R) ls, exact_solver ls -> forall knn hnsw dist, sklearn_ok knn dist ->
  forall en method kw w g K cur test train targets F N M r,
  lower method = "exact" -> euclidean_kw kw -> nn_init en (rows_of train) 2 method kw = Ok w -> (3 <= N /\ 0 < M)%nat ->
  shape test = [M; F] -> shape train = [N; F] -> shape targets = [N; r] -> M <> 1%nat -> distinct_rows train N (fun i => i) ->
  lk_ok K F cur [] -> gp_noise g = NullNoise ->
  exists mean C, work_fast_any ls knn hnsw (Univariate (lib_model gamma kv g K cur)) test train w targets = Ok (mean, C) /\
    forall x a s, (x < M)%nat -> (a < N)%nat -> same_row test train x a -> (s < r)%nat ->
      exists q, nearest_others train N a 2 q /\
        at_ mean (out_idx r x s) * (1 + kcov (lk_cov gamma kv K F cur []) train train a (q O)) = at_ targets [a; s] + at_ targets [q O; s].
Proof.
  intros gamma kv ls EX knn hnsw dist Hsk en method kw w g K cur test train targets F N M r Hm He Hi Hn St Sx HT HM DR OK NU.
  assert (NZ : forall x i, noise_at (gp_noise g) None x i = 0) by (rewrite NU; reflexivity).
  destruct (fast_any_uni gamma kv ls EX knn hnsw dist Hsk en method kw w g K cur test train targets F N M 2 r) as (mean & C & q & p & coef & E & _ & _ & HC & HP); auto; try lia.
  { rewrite NU. exact I. }
  { intros x i. rewrite NZ. lra. }
  exists mean, C. split; [exact E|]. intros x a s Hx Ha SR Hs. exists (q a). destruct (HC a Ha) as [A B]. split; [exact A|].
  assert (FC1 : feature_count test = F) by (unfold feature_count; rewrite St; reflexivity).
  assert (FC2 : feature_count train = F) by (unfold feature_count; rewrite Sx; reflexivity).
  destruct (HP x Hx) as [NR V]. destruct (B s Hs) as [_ SOL].
  assert (PA : p x O = a) by (apply (nearest_first test train N x 2 (p x) a); auto; try lia; congruence).
  apply (fast_two gamma kv K F cur g test train targets N 2 r q (p x) coef (at_ mean (out_idx r x s)) x a s); auto.
Qed.
Print Assumptions C86_training_row_refuted.

(** Multivariate models: the call succeeds and every prediction and coefficient is 0. *)
Theorem C86_multivariate_zero_refuted : forall (gamma : R -> R) (kv : R -> R -> R) ls, exact_solver ls -> forall knn hnsw dist, sklearn_ok knn dist ->
  forall en method kw w (ms : list (gp * libkernel * (nat -> R))) test train targets F N M n r,
  lower method = "exact" -> euclidean_kw kw -> nn_init en (rows_of train) n method kw = Ok w -> (1 < n)%nat -> (n + 1 <= N /\ 0 < M)%nat ->
  shape test = [M; F] -> shape train = [N; F] -> shape targets = [N; r] -> ms <> [] -> (List.length ms <= r)%nat -> distinct_rows train N (fun i => i) ->
  (forall g K cur, In (g, K, cur) ms -> lk_ok K F cur [] /\ uniform_noise (gp_noise g) /\ (forall x i, 0 <= noise_at (gp_noise g) None x i)) ->
  exists mean C,
    work_fast_any ls knn hnsw (Multivariate (map (fun e => lib_model gamma kv (fst (fst e)) (snd (fst e)) (snd e)) ms)) test train w targets = Ok (mean, C) /\
    shape mean = [M; r] /\ shape C = [N; n; r] /\ (forall idx, at_ mean idx = 0) /\ (forall idx, at_ C idx = 0).
Proof.
  intros gamma kv ls EX knn hnsw dist Hsk en method kw w ms test train targets F N M n r.
  apply (fast_any_multi gamma kv ls EX knn hnsw dist Hsk).
Qed.
Print Assumptions C86_multivariate_zero_refuted.

Theorem C86_multivariate_always_zero_refuted : forall ls knn hnsw ms test train w targets mean C,
  work_fast_any ls knn hnsw (Multivariate ms) test train w targets = Ok (mean, C) ->
  (forall idx, at_ mean idx = 0) /\ (forall idx, at_ C idx = 0).
Proof. exact fast_zero. Qed.
Print Assumptions C86_multivariate_always_zero_refuted.

(** One-axis features raise. *)
Theorem C86_one_axis_refuted : forall ls knn hnsw m test train w targets N, shape train = [N] ->
  work_fast_any ls knn hnsw m test train w targets = Err ValueError.
Proof. intros ls knn hnsw m test train w targets N H. unfold work_fast_any, make_fast. rewrite H. reflexivity. Qed.
Print Assumptions C86_one_axis_refuted.

(** do_fast_posterior_mean returns the trained model, its lookup and what fast_posterior_mean_any computes with them. *)
Theorem C86_do_fast : forall ls knn hnsw spec make fixed batch opt scale mscale en test train targets n method kw k m w mean C,
  do_fast_posterior_mean ls knn hnsw spec make fixed batch opt scale mscale en test train targets n method kw k = Ok (m, w, mean, C) ->
  nn_init en (rows_of train) n method kw = Ok w /\
  decide_and_make_regressor spec mmodel make fixed (Ok tt) (batch w) (opt w) (scale w) (mscale w) (shape targets) k = Ok m /\
  work_fast_any ls knn hnsw m test train w targets = Ok (mean, C).
Proof. exact do_fast_inv. Qed.
Print Assumptions C86_do_fast.

(** ** The hypotheses are satisfiable *)
Example C86_sat : exists knn dist w w', sklearn_ok knn dist /\ lower "exact" = "exact" /\ euclidean_kw [] /\
  nn_init false (rows_of ex85_train) 3 "exact" [] = Ok w /\ nn_init false (rows_of ex85_train) 2 "exact" [] = Ok w' /\ (3 + 1 <= 4)%nat /\
  shape ex85_test = [2; 2]%nat /\ shape ex85_train = [4; 2]%nat /\ distinct_rows ex85_train 4 (fun i => i) /\
  lk_ok ex80_K 2 (fun _ => 1) [] /\ gp_noise ex80_gp = NullNoise /\ noise_fits (gp_noise ex80_gp) 4 3 /\
  (forall x i, 0 <= noise_at (gp_noise ex80_gp) None x i) /\ uniform_noise (gp_noise ex80_gp) /\
  same_row (mkNd [2; 2]%nat (fun idx => match idx with [_; O] => 1 | _ => 0 end)) ex85_train 0 1.
Proof.
  exists ref_knn, (fun _ => ref_dist). do 2 eexists. split; [apply ref_ok|]. split; [reflexivity|]. split; [unfold euclidean_kw; cbn; auto|].
  split; [reflexivity|]. split; [reflexivity|]. split; [lia|]. split; [reflexivity|]. split; [reflexivity|]. split.
  { intros i j Hi Hj Hij. exists O. split; [cbn; lia|]. unfold feature, ex85_train. cbn [shape at_]. intros E.
    assert (E' : INR i = INR j) by (destruct i as [|[|[|[|i]]]], j as [|[|[|[|j]]]]; exact E). apply INR_eq in E'. lia. }
  split. { split; [reflexivity|]. split; [cbn; lia|]. split; [intros f _; cbn; lra|reflexivity]. }
  split; [reflexivity|]. split; [exact I|]. split; [intros; cbn; lra|]. split; [left; reflexivity|].
  intros f Hf. unfold feature, ex85_train. cbn [shape at_]. cbn in Hf. destruct f as [|[|f]]; [cbn; lra|reflexivity|lia].
Qed.
