(** Multivariate models, response by response (C125). *)
From Coq Require Import Lia Lra.
From Verif Require Import Base BaseFacts NdModel NdFacts RSum HyperModel NamedModel NamedSpec LinAlgModel LinAlgSpec LinAlgFacts Gauss
  GPModel NoiseModel MuyGPSModel GPSpec GPTheorems TensorModel TensorSpec KernelModel KernelSpec
  NeighborsModel NeighborsSpec NeighborsProofs BatchProofs FlowModel FlowSpec FlowProofs PointwiseSpec LibSpec LibProofs
  MultiModel DriverModel WorkModel WorkSpec WorkProofs WorkLemmas WorkProps BestSpec ColumnsProps SimplerSpec SimplerProps NativeSpec FitSpec CoincideSpec
  MultiwiseProofs.
Local Open Scope R_scope.

(** * C125 *)
(** Every response is predicted by the best linear combination of its own neighbours' responses under the covariance and noise of its own
    submodel; its variance is the mean squared error of that combination, times the scale, times the scale again (C44). All responses use the
    same neighbours. *)
Theorem C125_best_linear : forall gamma kv ls, exact_solver ls -> forall knn hnsw dist, sklearn_ok knn dist ->
  forall en method kw w (ms : list (gp * libkernel * (nat -> R))) test train targets F N M n r,
  regression en method kw w test train targets N M n [r] -> n <> 1%nat -> shape test = [M; F] -> shape train = [N; F] ->
  ms <> [] -> (List.length ms <= r)%nat -> (forall g K cur, In (g, K, cur) ms -> documented g K cur [] train N M n) ->
  exists mean var q,
    regress_any ls knn hnsw (Multivariate (map (fun e => lib_model gamma kv (fst (fst e)) (snd (fst e)) (snd e)) ms)) test train w targets = Ok (mean, var) /\
    shape mean = [M; r] /\ shape var = [M; List.length ms] /\
    forall x, (x < M)%nat -> nearest_rows test train N x n (q x) /\
      forall i g K cur, nth_error ms i = Some (g, K, cur) ->
        exists u, at_ mean [x; i] = rsum n (fun j => u j * at_ targets [q x j; i]) /\
          let error := error_variance (lk_cov gamma kv K F cur []) (gp_noise g) test train x n (q x) in
          at_ var [x; i] = gp_scale g * gp_var_scale g * error u /\
          forall v, error u <= error v /\ (error v = error u -> forall j, (j < n)%nat -> v j = u j).
Proof. intros gamma kv ls EX knn hnsw dist Hsk. exact (multi_best gamma kv ls EX knn hnsw dist Hsk). Qed.
Print Assumptions C125_best_linear.

(** Every response's prediction is the value of the best penalised fit in the space of its own kernel, and any function of that space that has
    its noise-free responses is predicted within the root of its penalised misfit times the variance (over the two scales). *)
Theorem C125_fit : forall gamma kv ls, exact_solver ls -> forall knn hnsw dist, sklearn_ok knn dist ->
  forall en method kw w (ms : list (gp * libkernel * (nat -> R))) test train targets F N M n r,
  regression en method kw w test train targets N M n [r] -> n <> 1%nat -> shape test = [M; F] -> shape train = [N; F] ->
  ms <> [] -> (List.length ms <= r)%nat -> (forall g K cur, In (g, K, cur) ms -> documented g K cur [] train N M n) ->
  exists mean var q,
    regress_any ls knn hnsw (Multivariate (map (fun e => lib_model gamma kv (fst (fst e)) (snd (fst e)) (snd e)) ms)) test train w targets = Ok (mean, var) /\
    shape mean = [M; r] /\ shape var = [M; List.length ms] /\
    forall x, (x < M)%nat -> nearest_rows test train N x n (q x) /\
      forall i g K cur, nth_error ms i = Some (g, K, cur) ->
        let k := lk_cov gamma kv K F cur [] in
        let y := fun b => at_ targets [b; i] in
        let z := fun j => feature train (q x j) in
        (exists a, at_ mean [x; i] = span k n z a (feature test x) /\ best_fit k (gp_noise g) train x n (q x) y n z a) /\
        forall p z' a', 0 <= gp_scale g -> respects (gp_noise g) train x n (q x) y (span k p z' a') ->
          gp_scale g * gp_var_scale g * (at_ mean [x; i] - span k p z' a' (feature test x)) ^ 2 <=
          penalised k (gp_noise g) train x n (q x) y p z' a' * at_ var [x; i].
Proof. intros gamma kv ls EX knn hnsw dist Hsk. exact (multi_fit gamma kv ls EX knn hnsw dist Hsk). Qed.
Print Assumptions C125_fit.

(** The call fails, with LinAlgError, exactly when for some submodel two noise-free nearest neighbours of some row coincide; otherwise every
    response is kriging by its own submodel. *)
Theorem C125_failure : forall gamma kv ls, exact_solver ls -> forall knn hnsw dist, sklearn_ok knn dist ->
  forall en method kw w (ms : list (gp * libkernel * (nat -> R))) test train targets F N M n r,
  lower method = "exact"%string -> euclidean_kw kw -> nn_init en (rows_of train) n method kw = Ok w -> (0 < n <= N /\ 0 < M)%nat -> n <> 1%nat ->
  shape test = [M; F] -> shape train = [N; F] -> shape targets = [N; r] -> ms <> [] -> (List.length ms <= r)%nat ->
  (forall g K cur, In (g, K, cur) ms -> lk_ok K F cur [] /\ shape (gp_Kout g) = [] /\ at_ (gp_Kout g) [] = 1 /\
     noise_fits (gp_noise g) M n /\ forall x i, (x < M)%nat -> (i < n)%nat -> 0 <= noise_at (gp_noise g) None x i) ->
  let call := regress_any ls knn hnsw (Multivariate (map (fun e => lib_model gamma kv (fst (fst e)) (snd (fst e)) (snd e)) ms)) test train w targets in
  exists q, (forall x, (x < M)%nat -> nearest_rows test train N x n (q x)) /\
    let fails := exists g K cur x, In (g, K, cur) ms /\ (x < M)%nat /\ coincident (gp_noise g) train n x (q x) in
    (fails -> call = Err LinAlgError) /\
    (~ fails -> exists mean var, call = Ok (mean, var) /\ shape mean = [M; r] /\ shape var = [M; List.length ms] /\
       forall i g K cur x, nth_error ms i = Some (g, K, cur) -> (x < M)%nat ->
         let k := lk_cov gamma kv K F cur [] in
         let A := nbr_matrix k (gp_noise g) train q x in
         let b := fun j => kcov k test train x (q x j) in
         kriging n A b (fun j => at_ targets [q x j; i]) (at_ mean [x; i]) /\
         exists u, solves n A u b /\ at_ var [x; i] = gp_scale g * (gp_var_scale g * (1 - dot n u b))).
Proof.
  intros gamma kv ls EX knn hnsw dist Hsk en method kw w ms test train targets F N M n r Hm He Hi Hn N1 St Sx HT NE HL Hms call.
  destruct (multi_any_iff gamma kv ls EX knn hnsw dist Hsk en method kw w ms test train targets F N M n r Hm He Hi Hn N1 St Sx HT NE HL Hms) as (NR & A & B).
  exists (nbr knn hnsw w test). split; [exact NR|]. split; [exact A|]. intros NF. destruct (B NF) as (mean & var & E & Sm & Sv & V).
  exists mean, var. split; [exact E|]. split; [exact Sm|]. split; [exact Sv|]. intros i g K cur x En Hx. apply (V i g K cur x En Hx).
Qed.
Print Assumptions C125_failure.

(** The hypotheses hold for the rows of C114_sat with two responses, an isotropic and an anisotropic submodel, and all three rows as neighbours. *)
Definition ex125_targets : nd R := mkNd [3; 2]%nat (fun idx => match idx with [a; s] => INR (a + 2 * s) | _ => 0 end).
Definition ex125_gp : gp := mkGp (HomoscedasticNoise (1/10)) FixedScale 3 3 (mkNd [] (fun _ => 1)).
Definition ex125_models : list (gp * libkernel * (nat -> R)) := [(ex125_gp, ex80_K, fun _ => 2); (ex125_gp, LRbf ex114_aniso, fun _ => 2)].
Example C125_sat : exists knn dist w, sklearn_ok knn dist /\
  regression false "exact" [] w ex114_test ex99_train ex125_targets 3 2 3 [2]%nat /\ shape ex114_test = [2; 2]%nat /\ shape ex99_train = [3; 2]%nat /\
  (List.length ex125_models <= 2)%nat /\ (forall g K cur, In (g, K, cur) ex125_models -> documented g K cur [] ex99_train 3 2 3 /\ 0 <= gp_scale g).
Proof.
  exists ref_knn, (fun _ => ref_dist). eexists. split; [apply ref_ok|]. split.
  { split; [reflexivity|]. split; [unfold euclidean_kw; cbn; auto|]. split; [reflexivity|]. split; [lia|]. split; [right; eexists; reflexivity|].
    split; [right; eexists; reflexivity|]. split; [reflexivity|]. split; [reflexivity|]. split; [reflexivity|]. apply no_coincidence_1. lia. }
  split; [reflexivity|]. split; [reflexivity|]. split; [cbn; lia|].
  assert (SC : sound_noise (HomoscedasticNoise (1/10)) ex99_train 3 2 3) by (left; intros; cbn; lra).
  intros g K cur [E|[E|[]]]; injection E as <- <- <-; (split; [|cbn; lra]); (split; [|split; [reflexivity|]; split; [reflexivity|]; split; [cbn; lra|]; split; [exact Logic.I|exact SC]]).
  - split; [reflexivity|]. split; [apply Nat.lt_0_succ|]. split; [intros f _; cbn; lra|reflexivity].
  - split; [|split; [apply Nat.lt_0_succ|split; [|reflexivity]]].
    + exists empty_store, [0; 0]%nat, 0%nat. split; [reflexivity|]. split; [reflexivity|]. split; [constructor|]. split; [apply Nat.le_0_l|reflexivity].
    + intros f Hf. change (feature_count ex99_train) with 2%nat in Hf. destruct f as [|[|f]]; [cbn; lra|cbn; lra|lia].
Qed.
