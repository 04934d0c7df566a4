(** C117: a prediction fails exactly when two noise-free neighbours of a row coincide. *)
From Coq Require Import Lia Lra.
From Verif Require Import Base BaseFacts NdModel NdFacts RSum HyperModel NamedModel NamedSpec LinAlgModel LinAlgSpec LinAlgFacts Gauss
  GPModel NoiseModel MuyGPSModel GPSpec GPTheorems TensorModel TensorSpec KernelModel KernelSpec KernelCases
  NeighborsModel NeighborsSpec NeighborsProofs BatchProofs FlowModel FlowSpec FlowProofs PointwiseSpec LibSpec LibProofs
  MultiModel DriverModel WorkModel WorkSpec WorkProofs WorkLemmas WorkProps FastWorkModel
  SimplerSpec CoincideSpec CoincideProofs CoincideProofs2
  ClassifyModel NamedModel NamedSpec LossModel LossSpec ChassisModel ChassisSpec TrainModel TrainSpec TrainProps CoincideProofs3.
Local Open Scope R_scope.
Local Open Scope string_scope.

(** * C117 *)
(** With given neighbours [q x] of row [x] and non-negative noise: if two noise-free neighbours of some row coincide the call raises
    LinAlgError and no row gets a prediction; otherwise it returns, for every row, the kriging mean and variance.  Distinctness of the
    training rows, or positive noise, is not needed. *)
Theorem C117_indices : forall (gamma : R -> R) (kv : R -> R -> R) ls, exact_solver ls ->
  forall g K cur kw nn test train targets N M w q ex,
  lk_ok K (feature_count train) cur kw -> dataset test M -> dataset train N -> ndim test = ndim train ->
  feature_count test = feature_count train -> shape targets = N :: ex -> no_coincidence ex [w] ->
  shape (gp_Kout g) = [] -> at_ (gp_Kout g) [] = 1 ->
  index_matrix nn M w N q -> noise_fits (gp_noise g) M w -> (forall x i, (x < M)%nat -> (i < w)%nat -> 0 <= noise_at (gp_noise g) None x i) ->
  let k := lk_cov gamma kv K (feature_count train) cur kw in
  ((exists x, (x < M)%nat /\ coincident (gp_noise g) train w x (q x)) ->
     regress_from_indices ls (mkMm g (lk_call gamma kv K cur kw)) (arange M) nn test train targets = Err LinAlgError) /\
  ((forall x, (x < M)%nat -> ~ coincident (gp_noise g) train w x (q x)) ->
   exists mean var,
    regress_from_indices ls (mkMm g (lk_call gamma kv K cur kw)) (arange M) nn test train targets = Ok (mean, var) /\
    shape mean = M :: ex /\ shape var = [M] /\
    forall x, (x < M)%nat ->
      (forall e, inb ex e ->
        kriging w (nbr_matrix k (gp_noise g) train q x) (fun j => kcov k test train x (q x j)) (fun j => at_ targets (q x j :: e)) (at_ mean (x :: e))) /\
      (exists wv, solves w (nbr_matrix k (gp_noise g) train q x) wv (fun j => kcov k test train x (q x j)) /\
        at_ var [x] = gp_var_scale g * (1 - dot w wv (fun j => kcov k test train x (q x j))))).
Proof. intros gamma kv ls EX. exact (regress_indices_iff gamma kv ls EX). Qed.
Print Assumptions C117_indices.

(** The same from the raw data, with the neighbours the lookup finds. *)
Theorem C117_any : forall (gamma : R -> R) (kv : R -> R -> R) ls, exact_solver ls -> forall knn hnsw dist, sklearn_ok knn dist ->
  forall en method kw w g K cur test train targets N M n ex,
  lower method = "exact" -> euclidean_kw kw -> nn_init en (rows_of train) n method kw = Ok w -> (0 < n <= N /\ 0 < M)%nat ->
  dataset test M -> dataset train N -> ndim test = ndim train -> feature_count test = feature_count train ->
  lk_ok K (feature_count train) cur [] -> shape targets = N :: ex -> no_coincidence ex [n] ->
  shape (gp_Kout g) = [] -> at_ (gp_Kout g) [] = 1 ->
  noise_fits (gp_noise g) M n -> (forall x i, (x < M)%nat -> (i < n)%nat -> 0 <= noise_at (gp_noise g) None x i) ->
  let k := lk_cov gamma kv K (feature_count train) cur [] in
  exists q, (forall x, (x < M)%nat -> nearest_rows test train N x n (q x)) /\
    ((exists x, (x < M)%nat /\ coincident (gp_noise g) train n x (q x)) ->
       regress_any ls knn hnsw (Univariate (lib_model gamma kv g K cur)) test train w targets = Err LinAlgError) /\
    ((forall x, (x < M)%nat -> ~ coincident (gp_noise g) train n x (q x)) ->
     exists mean var,
      regress_any ls knn hnsw (Univariate (lib_model gamma kv g K cur)) test train w targets = Ok (mean, var) /\
      shape mean = M :: ex /\ shape var = [M] /\
      forall x, (x < M)%nat ->
        (forall e, inb ex e ->
          kriging n (nbr_matrix k (gp_noise g) train q x) (fun j => kcov k test train x (q x j)) (fun j => at_ targets (q x j :: e)) (at_ mean (x :: e))) /\
        (exists wv, solves n (nbr_matrix k (gp_noise g) train q x) wv (fun j => kcov k test train x (q x j)) /\
          at_ var [x] = gp_var_scale g * (1 - dot n wv (fun j => kcov k test train x (q x j))))).
Proof. intros gamma kv ls EX knn hnsw dist SKL. exact (regress_any_iff gamma kv ls EX knn hnsw dist SKL). Qed.
Print Assumptions C117_any.

(** Fast prediction computes coefficients for every training row: without noise one repeated training row makes it fail, whatever the test
    data. *)
Theorem C117_fast : forall (gamma : R -> R) (kv : R -> R -> R) ls, exact_solver ls -> forall knn hnsw dist, sklearn_ok knn dist ->
  forall en method kw w g K cur test train targets F N n r a b,
  lower method = "exact" -> euclidean_kw kw -> nn_init en (rows_of train) n method kw = Ok w -> (1 < n)%nat -> (n + 1 <= N)%nat ->
  shape train = [N; F] -> shape targets = [N; r] -> lk_ok K F cur [] -> noise_fits (gp_noise g) N n ->
  (forall x i, noise_at (gp_noise g) None x i = 0) ->
  (a < N)%nat -> (b < N)%nat -> a <> b -> same_row train train a b ->
  work_fast_any ls knn hnsw (Univariate (lib_model gamma kv g K cur)) test train w targets = Err LinAlgError.
Proof. intros gamma kv ls EX knn hnsw dist SKL. exact (fast_any_fails gamma kv ls EX knn hnsw dist SKL). Qed.
Print Assumptions C117_fast.

(** The hypotheses hold for three rows of which the first two are equal: without noise the neighbours (0, 1) coincide, the neighbours (0, 2) do not,
    and with noise 1 neither does. *)
Definition ex117_train : nd R := mkNd [3%nat] (fun idx => match idx with [2%nat] => 1 | _ => 0 end).
Definition ex117_test : nd R := mkNd [1%nat] (fun _ => 2 / 5).
Definition ex117_homo : noise_model := HomoscedasticNoise 1.
Example C117_sat :
  lk_ok ex80_K (feature_count ex117_train) (fun _ => 1) [] /\ dataset ex117_test 1 /\ dataset ex117_train 3 /\ ndim ex117_test = ndim ex117_train /\
  feature_count ex117_test = feature_count ex117_train /\ shape ex80_targets = [3%nat] /\ no_coincidence [] [2%nat] /\
  shape (gp_Kout ex80_gp) = [] /\ at_ (gp_Kout ex80_gp) [] = 1 /\
  index_matrix (mkNd [1; 2]%nat (fun idx => match idx with [_; j] => Z.of_nat j | _ => 0%Z end)) 1 2 3 (fun _ j => j) /\
  index_matrix (mkNd [1; 2]%nat (fun idx => match idx with [_; j] => Z.of_nat (2 * j) | _ => 0%Z end)) 1 2 3 (fun _ j => (2 * j)%nat) /\
  noise_fits (gp_noise ex80_gp) 1 2 /\ (forall x i, (x < 1)%nat -> (i < 2)%nat -> 0 <= noise_at (gp_noise ex80_gp) None x i) /\
  coincident (gp_noise ex80_gp) ex117_train 2 0 (fun j => j) /\ ~ coincident (gp_noise ex80_gp) ex117_train 2 0 (fun j => (2 * j)%nat) /\
  ~ coincident ex117_homo ex117_train 2 0 (fun j => j).
Proof.
  split. { split; [reflexivity|]. split; [apply Nat.lt_0_1|]. split; [intros f _; cbn; lra|reflexivity]. }
  split; [left; reflexivity|]. split; [left; reflexivity|]. split; [reflexivity|]. split; [reflexivity|]. split; [reflexivity|].
  split; [apply no_coincidence_nil|]. split; [reflexivity|]. split; [reflexivity|].
  split. { split; [reflexivity|]. intros x j _ Hj. split; [reflexivity|lia]. }
  split. { split; [reflexivity|]. intros x j _ Hj. split; [reflexivity|lia]. }
  split; [exact I|]. split; [intros; cbn; lra|]. split.
  { exists O, 1%nat. split; [lia|]. split; [lia|]. split; [lia|]. split; [reflexivity|]. split; [reflexivity|]. intros f _. reflexivity. }
  split.
  - intros (i & j & Hi & Hj & Hij & _ & _ & E). specialize (E O Nat.lt_0_1).
    unfold feature, ex117_train in E. cbn [shape at_] in E.
    destruct i as [|[|i]]; [| |lia]; (destruct j as [|[|j]]; [| |lia]); try lia; cbn in E; lra.
  - intros (i & j & _ & _ & _ & E & _). cbn in E. lra.
Qed.

Definition ex117_train2 : nd R := mkNd [4; 1]%nat (fun idx => match idx with [a; _] => INR (a - 1) | _ => 0 end).
Example C117_fast_sat : exists knn dist w, sklearn_ok knn dist /\ euclidean_kw [] /\ nn_init false (rows_of ex117_train2) 2 "Exact" [] = Ok w /\
  lower "Exact" = "exact" /\ (2 + 1 <= 4)%nat /\ lk_ok ex80_K 1 (fun _ => 1) [] /\ noise_fits (gp_noise ex80_gp) 4 2 /\
  (forall x i, noise_at (gp_noise ex80_gp) None x i = 0) /\ same_row ex117_train2 ex117_train2 0 1.
Proof.
  exists ref_knn, (fun _ => ref_dist). eexists. split; [apply ref_ok|]. split; [unfold euclidean_kw; cbn; auto|]. split; [reflexivity|].
  split; [reflexivity|]. split; [lia|]. split. { split; [reflexivity|]. split; [apply Nat.lt_0_1|]. split; [intros f _; cbn; lra|reflexivity]. }
  split; [exact I|]. split; [reflexivity|]. intros f _. reflexivity.
Qed.

(** Training from a batch one of whose rows has two coinciding neighbours, the noise being fixed at zero there: the objective raises
    LinAlgError at every candidate of the box, for every loss; ... *)
Theorem C117_objective : forall ls, exact_solver ls -> forall sld eps gamma kv s F l kw draws train targets ix nn N b n c q names x0 bounds t,
  model_ok s F -> bounds_ok s F -> positive_bounds s F -> leading_free s (k_ls (m_kernel (f_attr F))) ->
  get_opt_params s (f_attr F) = Ok (names, x0, bounds) -> ~ In "noise" names ->
  trainable s F train b n -> batch_ok train targets ix nn N b n c q ->
  (exists x, (x < b)%nat /\ coincident (full_noise s F) train n x (q x)) ->
  full_train_tensors F ix nn train targets = Ok t ->
  forall x, in_box x bounds ->
    obj_fn ls sld eps gamma kv s F l kw None draws (tr_pair t) (tr_cross t) (tr_nn_targets t) (tr_targets t) (combine names x) = Err LinAlgError.
Proof.
  intros ls EX sld eps gamma kv s F l kw draws train targets ix nn N b n c q names x0 bounds t MO BO PB LF EO SK TR BK CO Et x BX.
  exact (objective_singular ls EX sld eps gamma kv s F l kw draws train targets ix nn N b n c q names x0 bounds MO BO PB LF EO SK TR BK CO t x Et BX).
Qed.
Print Assumptions C117_objective.

(** ... so optimize_from_indices raises it with every optimizer that evaluates the objective in the box and lets its exception through. *)
Theorem C117_training : forall ls, exact_solver ls -> forall sld eps gamma kv s F l kw draws train targets ix nn N b n c q names x0 bounds opt,
  model_ok s F -> bounds_ok s F -> positive_bounds s F -> leading_free s (k_ls (m_kernel (f_attr F))) ->
  get_opt_params s (f_attr F) = Ok (names, x0, bounds) -> ~ In "noise" names ->
  trainable s F train b n -> batch_ok train targets ix nn N b n c q ->
  (exists x, (x < b)%nat /\ coincident (full_noise s F) train n x (q x)) ->
  (forall f, (forall y, in_box y bounds -> f (combine names y) = Err LinAlgError) -> opt s F f = Err LinAlgError) ->
  optimize_from_indices ls sld eps gamma kv opt s F l kw None draws ix nn train targets = Err LinAlgError.
Proof.
  intros ls EX sld eps gamma kv s F l kw draws train targets ix nn N b n c q names x0 bounds opt MO BO PB LF EO SK TR BK CO HO.
  exact (training_singular ls EX sld eps gamma kv s F l kw draws train targets ix nn N b n c q names x0 bounds MO BO PB LF EO SK TR BK CO opt HO).
Qed.
Print Assumptions C117_training.

(** The hypotheses hold for rows 0, 0, 1 without noise, the batch being the third row with the first two as its neighbours, and the optimizer
    that evaluates the objective at length scale 1. *)
Definition ex117_store : store := mkStore 2 (fun l => match l with
  | O => mkParam (Fin 0) (Fin 0, Fin 0) true
  | _ => mkParam (Fin 1) (Fin (1/2), Fin 2) false end).
Definition ex117_full : full :=
  mkFull ex84_model (model_make ex117_store ex84_model) F2 (mkNd [] (fun _ => 0)) (AnalyticScale 1) 1 1.
Definition ex117_opt (s : store) (F : full) (f : dict R -> result R) : result (store * full) :=
  let! _ := f (combine ["length_scale"] [1]) in
  new_muygps s F ["length_scale"] [(Fin (1/2), Fin 2)] (combine ["length_scale"] (map Fin [1])).

Example C117_training_sat :
  model_ok ex117_store ex117_full /\ bounds_ok ex117_store ex117_full /\ positive_bounds ex117_store ex117_full /\
  leading_free ex117_store (k_ls (m_kernel (f_attr ex117_full))) /\
  get_opt_params ex117_store (f_attr ex117_full) = Ok (["length_scale"], [Fin 1], [(Fin (1/2), Fin 2)]) /\ ~ In "noise" ["length_scale"] /\
  trainable ex117_store ex117_full ex117_train 1 2 /\
  (exists ix nn, batch_ok ex117_train ex80_targets ix nn 3 1 2 (fun _ => 2%nat) (fun _ j => j)) /\
  coincident (full_noise ex117_store ex117_full) ex117_train 2 0 (fun j => j) /\
  (forall f, (forall y, in_box y [(Fin (1/2), Fin 2)] -> f (combine ["length_scale"] y) = Err LinAlgError) ->
     ex117_opt ex117_store ex117_full f = Err LinAlgError).
Proof.
  split.
  { split; [split; [constructor; reflexivity|split; [exact I|reflexivity]]|]. split; [discriminate|]. split.
    - intros n Hn. cbn in Hn. repeat destruct Hn as [<-|Hn]; cbn; try lia; destruct Hn.
    - cbn. repeat (constructor; [cbn; intuition discriminate|]). constructor. }
  split.
  { intros n Hn Hf. cbn in Hn. repeat destruct Hn as [<-|Hn]; cbn in *; try discriminate; try destruct Hn.
    split; [discriminate|]. split; [discriminate|]. intros C; inversion C; lra. }
  split.
  { intros n Hn Hf. cbn in Hn. repeat destruct Hn as [<-|Hn]; cbn in *; try discriminate; try destruct Hn. exists (1/2). split; [reflexivity|lra]. }
  split; [exact I|]. split; [reflexivity|]. split; [intros [H|[]]; discriminate|].
  split.
  { split; [reflexivity|]. split.
    - eexists. split; [reflexivity|]. split; [reflexivity|]. split; [apply Nat.lt_0_1|]. split; [intros f _; cbn; lra|reflexivity].
    - split; [exact I|]. cbn. lia. }
  split.
  { exists (index_vector [2]%nat), (index_array 2 [[0; 1]]%nat).
    split; [left; reflexivity|]. split; [reflexivity|]. split; [lia|]. split; [lia|]. split; [reflexivity|]. split.
    - intros x Hx. destruct x as [|x]; [|lia]. split; [reflexivity|lia].
    - split; [reflexivity|]. intros x j Hx Hj. destruct x as [|x]; [|lia]. destruct j as [|[|j]]; [| |lia]; (split; [reflexivity|lia]). }
  split.
  { exists O, 1%nat. split; [lia|]. split; [lia|]. split; [lia|]. split; [reflexivity|]. split; [reflexivity|]. intros f _. reflexivity. }
  intros f Hf. unfold ex117_opt. rewrite Hf; [reflexivity|]. constructor; [split; intros C; inversion C; lra|constructor].
Qed.
