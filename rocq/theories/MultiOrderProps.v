(** C125, continued: comparing the variances of multivariate predictions. *)
From Coq Require Import Lia Lra.
From Verif Require Import Base BaseFacts NdModel NdFacts RSum HyperModel NamedModel NamedSpec LinAlgModel LinAlgSpec LinAlgFacts Gauss
  GPModel NoiseModel MuyGPSModel GPSpec GPTheorems TensorModel TensorSpec KernelModel KernelSpec
  NeighborsModel NeighborsSpec NeighborsProofs BatchProofs FlowModel FlowSpec FlowProofs PointwiseSpec LibSpec LibProofs
  MultiModel DriverModel WorkModel WorkSpec WorkProofs WorkLemmas WorkProps BestSpec ColumnsProps SimplerSpec SimplerProps NativeSpec FitSpec CoincideSpec
  LocalProofs MultiwiseProofs MultiwiseProps MultiOrderProofs.
Local Open Scope R_scope.

(** Raising the noise of a submodel never lowers the variance of any response. *)
Theorem C125_more_noise : forall gamma kv ls, exact_solver ls -> forall knn hnsw dist, sklearn_ok knn dist ->
  forall en method kw w (ms ms' : list (gp * libkernel * (nat -> R))) test train targets F N M n r,
  regression en method kw w test train targets N M n [r] -> n <> 1%nat -> shape test = [M; F] -> shape train = [N; F] ->
  ms <> [] -> (List.length ms <= r)%nat -> (forall g K cur, In (g, K, cur) ms -> documented g K cur [] train N M n /\ 0 <= gp_scale g) ->
  List.length ms' = List.length ms ->
  (forall i g K cur, nth_error ms i = Some (g, K, cur) -> exists g', nth_error ms' i = Some (g', K, cur) /\ same_but_noise g g' /\ gp_scale g' = gp_scale g /\
     noise_fits (gp_noise g') M n /\
     forall x j, (x < M)%nat -> (j < n)%nat -> noise_at (gp_noise g) None x j <= noise_at (gp_noise g') None x j) ->
  exists mean var mean' var',
    regress_any ls knn hnsw (Multivariate (map (fun e => lib_model gamma kv (fst (fst e)) (snd (fst e)) (snd e)) ms)) test train w targets = Ok (mean, var) /\
    regress_any ls knn hnsw (Multivariate (map (fun e => lib_model gamma kv (fst (fst e)) (snd (fst e)) (snd e)) ms')) test train w targets = Ok (mean', var') /\
    forall x i, (x < M)%nat -> (i < List.length ms)%nat -> at_ var [x; i] <= at_ var' [x; i].
Proof. intros gamma kv ls EX knn hnsw dist Hsk. exact (multi_more_noise gamma kv ls EX knn hnsw dist Hsk). Qed.
Print Assumptions C125_more_noise.

(** A lookup with more neighbours never raises the variance of any response, at a test row whose distances are not tied. *)
Theorem C125_more_neighbors : forall gamma kv ls, exact_solver ls -> forall knn hnsw dist, sklearn_ok knn dist ->
  forall en method kw w en' method' kw' w' (ms : list (gp * libkernel * (nat -> R))) test train targets F N M n n' r,
  regression en method kw w test train targets N M n [r] -> regression en' method' kw' w' test train targets N M n' [r] -> (n <= n')%nat ->
  n <> 1%nat -> n' <> 1%nat -> shape test = [M; F] -> shape train = [N; F] -> ms <> [] -> (List.length ms <= r)%nat ->
  (forall g K cur, In (g, K, cur) ms -> documented g K cur [] train N M n' /\ uniform_noise (gp_noise g) /\ 0 <= gp_scale g) ->
  exists mean var mean' var',
    regress_any ls knn hnsw (Multivariate (map (fun e => lib_model gamma kv (fst (fst e)) (snd (fst e)) (snd e)) ms)) test train w targets = Ok (mean, var) /\
    regress_any ls knn hnsw (Multivariate (map (fun e => lib_model gamma kv (fst (fst e)) (snd (fst e)) (snd e)) ms)) test train w' targets = Ok (mean', var') /\
    forall x i, (x < M)%nat -> no_ties test train N x -> (i < List.length ms)%nat -> at_ var' [x; i] <= at_ var [x; i].
Proof. intros gamma kv ls EX knn hnsw dist Hsk. exact (multi_more_neighbors gamma kv ls EX knn hnsw dist Hsk). Qed.
Print Assumptions C125_more_neighbors.

(** Four responses (C125's targets may not have as many responses as there are neighbours); the models of C125_sat, the same with twice the noise, and lookups of two and of three of its three rows. *)
Definition ex125_wide : nd R := mkNd [3; 4]%nat (fun idx => match idx with [a; s] => INR (a + 2 * s) | _ => 0 end).
Definition ex125_noisier : gp := mkGp (HomoscedasticNoise (1/5)) FixedScale 3 3 (mkNd [] (fun _ => 1)).
Definition ex125_models' : list (gp * libkernel * (nat -> R)) := [(ex125_noisier, ex80_K, fun _ => 2); (ex125_noisier, LRbf ex114_aniso, fun _ => 2)].
Example C125_order_sat : exists knn dist w w2, sklearn_ok knn dist /\
  regression false "exact" [] w ex114_test ex99_train ex125_wide 3 2 3 [4]%nat /\
  regression false "exact" [] w2 ex114_test ex99_train ex125_wide 3 2 2 [4]%nat /\
  (forall g K cur, In (g, K, cur) ex125_models -> documented g K cur [] ex99_train 3 2 3 /\ uniform_noise (gp_noise g) /\ 0 <= gp_scale g) /\
  List.length ex125_models' = List.length ex125_models /\
  (forall i g K cur, nth_error ex125_models i = Some (g, K, cur) -> exists g', nth_error ex125_models' i = Some (g', K, cur) /\
     same_but_noise g g' /\ gp_scale g' = gp_scale g /\ noise_fits (gp_noise g') 2 3 /\
     forall x j, (x < 2)%nat -> (j < 3)%nat -> noise_at (gp_noise g) None x j <= noise_at (gp_noise g') None x j) /\
  no_ties ex114_test ex99_train 3 0.
Proof.
  destruct C125_sat as (_ & _ & _ & _ & _ & _ & _ & _ & DOC).
  exists ref_knn, (fun _ => ref_dist). do 2 eexists. split; [apply ref_ok|].
  split.
  { split; [reflexivity|]. split; [unfold euclidean_kw; cbn; auto|]. split; [reflexivity|]. split; [lia|]. split; [right; eexists; reflexivity|].
    split; [right; eexists; reflexivity|]. split; [reflexivity|]. split; [reflexivity|]. split; [reflexivity|]. apply no_coincidence_1. lia. }
  split.
  { split; [reflexivity|]. split; [unfold euclidean_kw; cbn; auto|]. split; [reflexivity|]. split; [lia|]. split; [right; eexists; reflexivity|].
    split; [right; eexists; reflexivity|]. split; [reflexivity|]. split; [reflexivity|]. split; [reflexivity|]. apply no_coincidence_1. lia. }
  split. { intros g K cur Hin. destruct (DOC g K cur Hin) as [D G]. split; [exact D|]. split; [|exact G].
    destruct Hin as [E|[E|[]]]; injection E as <- _ _; right; eexists; reflexivity. }
  split; [reflexivity|]. split.
  { intros i g K cur E. destruct i as [|[|i]]; [| |destruct i; discriminate]; injection E as <- <- <-;
      (exists ex125_noisier; split; [reflexivity|]; split; [split; reflexivity|]; split; [reflexivity|]; split; [exact Logic.I|]; intros; cbn; lra). }
  assert (RD : forall a, (a < 3)%nat -> row_dist ex114_test ex99_train 0 a = match a with O => 1 | 1%nat => 10 | _ => 25 end).
  { intros a Ha. unfold row_dist, sqdist, feature_count, feature. destruct a as [|[|[|a]]]; [| | |lia]; cbn; ring. }
  intros a c Ha Hc. rewrite !RD by auto. destruct a as [|[|[|a]]], c as [|[|[|c]]]; try lia; lra.
Qed.
