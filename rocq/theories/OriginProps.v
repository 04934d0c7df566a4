(** The origin of the responses (C127). *)
From Coq Require Import Lia Lra.
From Verif Require Import Base BaseFacts NdModel NdFacts RSum HyperModel NamedModel NamedSpec LinAlgModel LinAlgSpec LinAlgFacts Gauss
  GPModel NoiseModel MuyGPSModel GPSpec GPTheorems TensorModel TensorSpec KernelModel KernelSpec KernelCases
  NeighborsModel NeighborsSpec NeighborsProofs BatchProofs FlowModel FlowSpec FlowProofs PointwiseSpec LibSpec LibProofs
  MultiModel DriverModel WorkModel WorkSpec WorkProofs WorkLemmas WorkProps BestSpec BestProofs SimplerSpec NearCorrProps OriginSpec OriginProofs.
Local Open Scope R_scope.

(** * C127 *)
(** Adding a constant to every response changes every mean at a test row by one multiple of the constant, the same for all constants and
    responses, and changes no variance. *)
Theorem C127_shift_partial : forall gamma kv ls, exact_solver ls -> forall knn hnsw dist, sklearn_ok knn dist ->
  forall en method kw w g K cur test train targets N M n ex,
  regression en method kw w test train targets N M n ex -> documented g K cur [] train N M n ->
  exists s : nat -> R, forall c, exists mean var mean' var',
    regress_any ls knn hnsw (Univariate (lib_model gamma kv g K cur)) test train w targets = Ok (mean, var) /\
    regress_any ls knn hnsw (Univariate (lib_model gamma kv g K cur)) test train w (shifted targets c) = Ok (mean', var') /\
    forall x, (x < M)%nat -> at_ var' [x] = at_ var [x] /\ forall e, inb ex e -> at_ mean' (x :: e) = at_ mean (x :: e) + c * s x.
Proof. exact shifted_law. Qed.
Print Assumptions C127_shift_partial.

(** Without noise it changes the mean at a training row by the constant. *)
Theorem C127_training_rows_partial : forall gamma kv ls, exact_solver ls -> forall knn hnsw dist, sklearn_ok knn dist ->
  forall en method kw w g K cur test train targets N M n ex c,
  regression en method kw w test train targets N M n ex -> documented g K cur [] train N M n ->
  gp_noise g = NullNoise \/ gp_noise g = HomoscedasticNoise 0 -> distinct_rows train N (fun i => i) ->
  exists mean var mean' var',
    regress_any ls knn hnsw (Univariate (lib_model gamma kv g K cur)) test train w targets = Ok (mean, var) /\
    regress_any ls knn hnsw (Univariate (lib_model gamma kv g K cur)) test train w (shifted targets c) = Ok (mean', var') /\
    forall x a e, (x < M)%nat -> (a < N)%nat -> same_row test train x a -> inb ex e -> at_ mean' (x :: e) = at_ mean (x :: e) + c.
Proof.
  intros gamma kv ls EX knn hnsw dist SK en method kw w g K cur test train targets N M n ex c (Hm & He & Hw & Hn & D1 & D2 & ND & FC & HT & NC)
    (OK & SKo & K1 & SC & NF & SN) NZ DR.
  destruct (C82_interpolation gamma kv ls EX knn hnsw dist SK en method kw w g K cur test train targets N M n ex) as (mean & var & E & V); auto.
  destruct (C82_interpolation gamma kv ls EX knn hnsw dist SK en method kw w g K cur test train (shifted targets c) N M n ex) as (mean' & var' & E' & V'); auto.
  exists mean, var, mean', var'. split; [exact E|]. split; [exact E'|]. intros x a e Hx Ha SR He'.
  rewrite (proj2 (V x a Hx Ha SR) e He'), (proj2 (V' x a Hx Ha SR) e He'). reflexivity.
Qed.
Print Assumptions C127_training_rows_partial.

(** With one neighbour the multiple is the correlation over 1 + noise, and the mean moves with the origin only at noise-free training rows. *)
Theorem C127_one_neighbour_refuted : forall gamma kv ls, exact_solver ls -> forall knn hnsw dist, sklearn_ok knn dist ->
  forall en method kw w g K cur test train targets N M ex c,
  regression en method kw w test train targets N M 1 ex -> documented g K cur [] train N M 1 ->
  exists mean var mean' var' q,
    regress_any ls knn hnsw (Univariate (lib_model gamma kv g K cur)) test train w targets = Ok (mean, var) /\
    regress_any ls knn hnsw (Univariate (lib_model gamma kv g K cur)) test train w (shifted targets c) = Ok (mean', var') /\
    forall x, (x < M)%nat -> nearest_rows test train N x 1 (q x) /\ forall e, inb ex e ->
      let rho := kcov (lk_cov gamma kv K (feature_count train) cur []) test train x (q x 0%nat) in
      at_ mean' (x :: e) = at_ mean (x :: e) + c * (rho / (1 + noise_at (gp_noise g) None x 0)) /\
      (at_ mean' (x :: e) = at_ mean (x :: e) + c <-> c = 0 \/ noise_at (gp_noise g) None x 0 = 0 /\ same_row test train x (q x 0%nat)).
Proof. exact shifted_one. Qed.
Print Assumptions C127_one_neighbour_refuted.

(** The hypotheses hold, with one neighbour, for the rows of C126, none of which is the test row: there the mean does not move with the origin. *)
Example C127_sat : exists w, regression false "exact" [] w ex126_test ex126_train ex126_targets 2 1 1 [] /\
  documented ex80_gp ex126_K ex126_cur [] ex126_train 2 1 1 /\ gp_noise ex80_gp = NullNoise /\ distinct_rows ex126_train 2 (fun i => i) /\
  forall a, (a < 2)%nat -> ~ same_row ex126_test ex126_train 0 a.
Proof.
  destruct ex126_ok as (w & A & B). exists w. split; [exact A|]. split; [exact B|]. split; [reflexivity|]. split.
  - intros i j Hi Hj NE. exists O. split; [cbn; lia|]. unfold feature, ex126_train. cbn [shape at_].
    destruct i as [|[|i]]; [| |lia]; (destruct j as [|[|j]]; [| |lia]); cbn; try lra; congruence.
  - intros a Ha SR. destruct a as [|[|a]]; [| |lia]; [specialize (SR 0%nat ltac:(cbn; lia))|specialize (SR 1%nat ltac:(cbn; lia))];
      unfold feature, ex126_test, ex126_train in SR; cbn in SR; lra.
Qed.
