(** With the exponential kernel on one feature, predictions from nearest neighbours are exact (C115). *)
From Coq Require Import Lia Lra.
From Verif Require Import Base NdModel NdFacts RSum LinAlgModel LinAlgSpec Gauss GPModel NoiseModel MuyGPSModel GPSpec GPTheorems
  TensorModel TensorSpec HyperModel HyperSpec NamedModel NamedSpec KernelModel KernelSpec FlowSpec PointwiseSpec LibSpec
  LossModel LossSpec ChassisModel ChassisSpec MultiModel DriverModel NeighborsModel NeighborsSpec NeighborsProofs BatchProofs WorkModel WorkSpec WorkLemmas WorkProps
  TrainModel TrainSpec TrainProofs TrainProps ExactLooSpec FairSpec SimplerSpec ExpoSpec ExpoProofs ExpoProofs2.
Local Open Scope R_scope.
Local Open Scope string_scope.

(** * C115 *)
(** The prediction in closed form: between the closest rows a and b on both sides it is the Ornstein-Uhlenbeck bridge; before or after all
    rows it decays from the closest one. The other neighbours have no influence. *)
Theorem C115_closed_form : forall gamma kv ls, exact_solver ls -> forall knn hnsw dist, sklearn_ok knn dist ->
  forall en method kw w test train targets N M n ex g K cur kkw l,
  regression en method kw w test train targets N M n ex -> documented g K cur kkw train N M n -> exponential g K cur kkw l -> feature_count train = 1%nat ->
  exists mean var,
    regress_any ls knn hnsw (Univariate (mkMm g (lk_call gamma kv K cur kkw))) test train w targets = Ok (mean, var) /\
    shape mean = M :: ex /\ shape var = [M] /\
    forall x, (x < M)%nat ->
     (forall a b, straddled test train N x n -> left_row train N (pos test x) a -> right_row train N (pos test x) b ->
      let A := (pos test x - pos train a) / l in let B := (pos train b - pos test x) / l in
      (forall e, inb ex e -> at_ mean (x :: e) = (sinh B * at_ targets (a :: e) + sinh A * at_ targets (b :: e)) / sinh (A + B)) /\
      at_ var [x] = gp_var_scale g * (2 * sinh A * sinh B / sinh (A + B))) /\
     (forall a, after_all test train N x -> left_row train N (pos test x) a ->
      let A := (pos test x - pos train a) / l in
      (forall e, inb ex e -> at_ mean (x :: e) = exp (- A) * at_ targets (a :: e)) /\ at_ var [x] = gp_var_scale g * (1 - exp (- (2 * A)))) /\
     (forall b, before_all test train N x -> right_row train N (pos test x) b ->
      let B := (pos train b - pos test x) / l in
      (forall e, inb ex e -> at_ mean (x :: e) = exp (- B) * at_ targets (b :: e)) /\ at_ var [x] = gp_var_scale g * (1 - exp (- (2 * B)))).
Proof. intros gamma kv ls EX knn hnsw dist Hsk. exact (expo_between gamma kv ls EX knn hnsw dist Hsk). Qed.
Print Assumptions C115_closed_form.

(** So [n] neighbours give the prediction of the full Gaussian process, from all [N] rows, wherever there are neighbours on both sides, or
    training rows on one side only. *)
Theorem C115_exact : forall gamma kv ls, exact_solver ls -> forall knn hnsw dist, sklearn_ok knn dist ->
  forall en method kw w en' method' kw' w' test train targets N M n ex g K cur kkw l,
  regression en method kw w test train targets N M n ex -> regression en' method' kw' w' test train targets N M N ex ->
  documented g K cur kkw train N M n -> exponential g K cur kkw l -> feature_count train = 1%nat ->
  (forall x, (x < M)%nat -> straddled test train N x n \/ after_all test train N x \/ before_all test train N x) ->
  same_prediction (regress_any ls knn hnsw (Univariate (mkMm g (lk_call gamma kv K cur kkw))) test train w targets)
                  (regress_any ls knn hnsw (Univariate (mkMm g (lk_call gamma kv K cur kkw))) test train w' targets).
Proof. intros gamma kv ls EX knn hnsw dist Hsk. exact (expo_exact gamma kv ls EX knn hnsw dist Hsk). Qed.
Print Assumptions C115_exact.

(** Training with a fixed scale: neighbour lists of different lengths, each with the closest row on both sides (or of a first or last row), give
    the same objective at every point of the box; with all other rows as neighbours it is the exact leave-one-out objective of C96. *)
Theorem C115_training : forall gamma kv ls, exact_solver ls -> forall sld eps s F names x0 bounds train targets N b c n q ix nn t n' q' ix' nn' t'
    l kw draws draws' x,
  training s F names x0 bounds train N b n c q -> training s F names x0 bounds train N b n' c q' ->
  batch_ok train targets ix nn N b n c q -> batch_ok train targets ix' nn' N b n' c q' -> loss_kw_ok kw -> scores_vectors l ->
  full_train_tensors F ix nn train targets = Ok t -> full_train_tensors F ix' nn' train targets = Ok t' ->
  f_kind F = FixedScale -> family s F = Half -> noiseless s F -> feature_count train = 1%nat -> distinct_rows train N (fun i => i) ->
  (forall y, (y < b)%nat -> nearest_others train N (c y) n (q y) /\ nearest_others train N (c y) n' (q' y) /\
     (loo_straddled train n (c y) (q y) /\ loo_straddled train n' (c y) (q' y) \/ extreme_row train N (c y))) ->
  in_box x bounds ->
  exists v,
    obj_fn ls sld eps gamma kv s F l kw None draws (tr_pair t) (tr_cross t) (tr_nn_targets t) (tr_targets t) (combine names x) = Ok v /\
    obj_fn ls sld eps gamma kv s F l kw None draws' (tr_pair t') (tr_cross t') (tr_nn_targets t') (tr_targets t') (combine names x) = Ok v.
Proof. intros gamma kv ls EX sld eps. exact (expo_training gamma kv ls EX sld eps). Qed.
Print Assumptions C115_training.

(** The hypotheses hold for the rows 0, 1, 3 and the test rows 1/2, 2, 5 with two neighbours and length scale 2. *)
Definition ex115_train : nd R := mkNd [3%nat] (fun idx => match hd O idx with O => 0 | S O => 1 | _ => 3 end).
Definition ex115_test : nd R := mkNd [3%nat] (fun idx => match hd O idx with O => 1/2 | S O => 2 | _ => 5 end).
Definition ex115_targets : nd R := mkNd [3%nat; 4%nat] (fun idx => INR (hd O idx)).
Definition ex115_gp : gp := mkGp NullNoise FixedScale 3 3 (mkNd [] (fun _ => 1)).
Definition ex115_K : libkernel := LMatern (Iso L2 (mkNamed "length_scale" 0)) (mkNamed "smoothness" 1) (mkParam (Fin (1/2)) (Fin 0, Fin 0) true).
Example C115_sat : exists knn dist w w', sklearn_ok knn dist /\
  regression false "exact" [] w ex115_test ex115_train ex115_targets 3 3 2 [4%nat] /\
  regression false "exact" [] w' ex115_test ex115_train ex115_targets 3 3 3 [4%nat] /\
  documented ex115_gp ex115_K (fun _ => 2) [] ex115_train 3 3 2 /\ exponential ex115_gp ex115_K (fun _ => 2) [] 2 /\ feature_count ex115_train = 1%nat /\
  straddled ex115_test ex115_train 3 0 2 /\ straddled ex115_test ex115_train 3 1 2 /\ after_all ex115_test ex115_train 3 2 /\
  left_row ex115_train 3 (pos ex115_test 1) 1 /\ right_row ex115_train 3 (pos ex115_test 1) 2.
Proof.
  exists ref_knn, (fun _ => ref_dist). eexists. eexists. split; [apply ref_ok|].
  assert (FH : formula_for (mkParam (Fin (1/2)) (Fin 0, Fin 0) true) = Half).
  { unfold formula_for. cbn. repeat (destruct (Req_EM_T _ _); try lra; try reflexivity). }
  assert (DR : distinct_rows ex115_train 3 (fun i => i)).
  { intros i j Hi Hj NE. exists O. split; [cbn; lia|]. unfold feature. cbn.
    destruct i as [|[|[|i]]]; [| | |lia]; (destruct j as [|[|[|j]]]; [| | |lia]); cbn; try lra; congruence. }
  assert (RG : forall n w, (0 < n <= 3)%nat -> (n <> 4)%nat -> nn_init false (rows_of ex115_train) n "exact" [] = Ok w ->
    regression false "exact" [] w ex115_test ex115_train ex115_targets 3 3 n [4%nat]).
  { intros n w Hn N4 Hw. split; [reflexivity|]. split; [unfold euclidean_kw; cbn; auto|]. split; [exact Hw|]. split; [lia|]. split; [left; reflexivity|].
    split; [left; reflexivity|]. split; [reflexivity|]. split; [reflexivity|]. split; [reflexivity|].
    split; [cbn; lia|]. intros [|k] Hk; cbn in *; lia. }
  split; [apply RG; [lia|lia|reflexivity]|]. split; [apply RG; [lia|lia|reflexivity]|].
  split.
  { split; [split; [reflexivity|]; split; [cbn; lia|]; split; [intros f _; cbn; lra|]|].
    - split; [reflexivity|]. split; [reflexivity|]. rewrite FH. discriminate.
    - split; [reflexivity|]. split; [reflexivity|]. split; [cbn; lra|]. split; [exact I|].
      right. split; [intros; cbn; lra|exact DR]. }
  split. { split; [eexists; eexists; eexists; split; [reflexivity|exact FH]|]. split; [reflexivity|left; reflexivity]. }
  split; [reflexivity|].
  assert (RD : forall x a, row_dist ex115_test ex115_train x a = (pos ex115_test x - pos ex115_train a) ^ 2) by (intros; apply row_dist_1; reflexivity).
  assert (ST : forall x, (x < 2)%nat -> straddled ex115_test ex115_train 3 x 2).
  { intros x Hx q (QB & QI & _ & OUT).
    pose proof (QB O ltac:(lia)) as B0. pose proof (QB 1%nat ltac:(lia)) as B1.
    assert (NE : q O <> q 1%nat) by (intros E; apply QI in E; lia).
    pose proof (fun a Ha Hn => OUT a Ha Hn O ltac:(lia)) as O0. pose proof (fun a Ha Hn => OUT a Ha Hn 1%nat ltac:(lia)) as O1. clear OUT.
    assert (NI : forall a, q O <> a -> q 1%nat <> a -> forall j, (j < 2)%nat -> q j <> a) by (intros a H0 H1 [|[|j]] Hj; [exact H0|exact H1|lia]).
    assert (W : forall j1 j2, (j1 < 2)%nat -> (j2 < 2)%nat -> pos ex115_train (q j1) <= pos ex115_test x -> pos ex115_test x < pos ex115_train (q j2) ->
      (exists j, (j < 2)%nat /\ pos ex115_train (q j) <= pos ex115_test x) /\ (exists j, (j < 2)%nat /\ pos ex115_test x < pos ex115_train (q j)))
      by (intros j1 j2 H1 H2 P1 P2; split; [exists j1|exists j2]; split; assumption).
    destruct (q O) as [|[|[|u]]] eqn:E0; [| | |lia]; (destruct (q 1%nat) as [|[|[|v]]] eqn:E1; [| | |lia]); try congruence.
    all: destruct x as [|[|x]]; [| |lia].
    all: unfold pos, feature, ex115_train, ex115_test in *; cbn [shape at_ hd] in *.
    all: first
      [ apply (W O 1%nat); [lia|lia|rewrite E0; cbn; lra|rewrite E1; cbn; lra]
      | apply (W 1%nat O); [lia|lia|rewrite E1; cbn; lra|rewrite E0; cbn; lra]
      | exfalso; specialize (O0 O ltac:(lia) (NI O ltac:(lia) ltac:(lia))); specialize (O1 O ltac:(lia) (NI O ltac:(lia) ltac:(lia))); rewrite ?E0, ?E1, !RD in *; cbn in *; lra
      | exfalso; specialize (O0 1%nat ltac:(lia) (NI 1%nat ltac:(lia) ltac:(lia))); specialize (O1 1%nat ltac:(lia) (NI 1%nat ltac:(lia) ltac:(lia))); rewrite ?E0, ?E1, !RD in *; cbn in *; lra
      | exfalso; specialize (O0 2%nat ltac:(lia) (NI 2%nat ltac:(lia) ltac:(lia))); specialize (O1 2%nat ltac:(lia) (NI 2%nat ltac:(lia) ltac:(lia))); rewrite ?E0, ?E1, !RD in *; cbn in *; lra ]. }
  split; [apply ST; lia|]. split; [apply ST; lia|].
  split. { intros c Hc. destruct c as [|[|[|c]]]; [| | |lia]; cbn; lra. }
  split; (split; [lia|]; split; [cbn; lra|]; intros c Hc; destruct c as [|[|[|c]]]; [| | |lia]; cbn; lra).
Qed.

(** Training: the rows 0, 1, 3, 4, a batch of the rows 1 and 0, with two neighbours or all three other rows. *)
Definition ex115_rows : nd R := mkNd [4%nat] (fun idx => match hd O idx with O => 0 | S O => 1 | S (S O) => 3 | _ => 4 end).
Definition ex115_y : nd R := mkNd [4%nat] (fun idx => INR (hd O idx)).
Definition ex115_store : store := mkStore 3 (fun l => match l with
  | O => mkParam (Fin (1/2)) (Fin 0, Fin 0) true
  | S (S O) => mkParam (Fin 0) (Fin 0, Fin 0) true
  | _ => mkParam (Fin 1) (Fin (1/2), Fin 4) false end).
Definition ex115_model : model := mkModel (KMatern (LSScalar (mkNamed "length_scale" 1)) (mkNamed "smoothness" 0) M05) (NHomo (mkNamed "noise" 2)).
Definition ex115 : full := mkFull ex115_model (model_make ex115_store ex115_model) L2 (mkNd [] (fun _ => 0)) FixedScale 1 1.
Definition ex115_c (x : nat) : nat := match x with O => 1%nat | _ => O end.
Definition ex115_q (x j : nat) : nat := match x, j with O, O => O | O, S O => 2%nat | O, _ => 3%nat | _, _ => S j end.
Definition ex115_nn (n : nat) : nd Z := mkNd [2%nat; n] (fun idx => match idx with [x; j] => Z.of_nat (ex115_q x j) | _ => 0%Z end).
Definition ex115_ix : nd Z := mkNd [2%nat] (fun idx => Z.of_nat (ex115_c (hd O idx))).
Example C115_training_sat :
  (forall n, n = 2%nat \/ n = 3%nat ->
    training ex115_store ex115 ["length_scale"] [Fin 1] [(Fin (1/2), Fin 4)] ex115_rows 4 2 n ex115_c ex115_q /\
    batch_ok ex115_rows ex115_y ex115_ix (ex115_nn n) 4 2 n ex115_c ex115_q /\
    (exists t, full_train_tensors ex115 ex115_ix (ex115_nn n) ex115_rows ex115_y = Ok t) /\
    forall y, (y < 2)%nat -> nearest_others ex115_rows 4 (ex115_c y) n (ex115_q y) /\
      (loo_straddled ex115_rows n (ex115_c y) (ex115_q y) \/ extreme_row ex115_rows 4 (ex115_c y))) /\
  f_kind ex115 = FixedScale /\ family ex115_store ex115 = Half /\ noiseless ex115_store ex115 /\ feature_count ex115_rows = 1%nat /\
  distinct_rows ex115_rows 4 (fun i => i).
Proof.
  assert (FH : formula_for (mkParam (Fin (1/2)) (Fin 0, Fin 0) true) = Half).
  { unfold formula_for. cbn. repeat (destruct (Req_EM_T _ _); try lra; try reflexivity). }
  assert (DR : distinct_rows ex115_rows 4 (fun i => i)).
  { intros i j Hi Hj NE. exists O. split; [cbn; lia|]. unfold feature. cbn.
    destruct i as [|[|[|[|i]]]]; [| | | |lia]; (destruct j as [|[|[|[|j]]]]; [| | | |lia]); cbn; try lra; congruence. }
  assert (OT : forall n x, n = 2%nat \/ n = 3%nat -> (x < 2)%nat -> others_of 4 n (ex115_c x) (ex115_q x)).
  { intros n x Hn Hx. destruct x as [|[|x]]; [| |lia]; (split; [intros j Hj; destruct j as [|[|[|j]]]; cbn; lia|
      intros i j Hi Hj; destruct i as [|[|[|i]]]; (destruct j as [|[|[|j]]]); cbn; lia]). }
  split.
  { intros n Hn. split; [|split; [|split]].
    - constructor.
      + split; [split; [constructor; reflexivity|split; [reflexivity|reflexivity]]|]. split; [discriminate|]. split.
        * intros m Hm. cbn in Hm. repeat destruct Hm as [<-|Hm]; cbn; try lia; destruct Hm.
        * cbn. repeat (constructor; [cbn; intuition discriminate|]). constructor.
      + intros m Hm Hf. cbn in Hm. repeat destruct Hm as [<-|Hm]; cbn in *; try discriminate; try destruct Hm.
        split; [discriminate|]. split; [discriminate|]. intros C; inversion C; lra.
      + intros m Hm Hf. cbn in Hm. repeat destruct Hm as [<-|Hm]; cbn in *; try discriminate; try destruct Hm. exists (1/2). split; [reflexivity|lra].
      + exact I.
      + reflexivity.
      + left. reflexivity.
      + split; [reflexivity|]. split; [|split; [exact I|exact I]].
        eexists. split; [reflexivity|]. split; [reflexivity|]. split; [apply Nat.lt_0_succ|]. split; [intros f _; cbn; lra|].
        split; [reflexivity|]. split; [reflexivity|]. cbn [st_cell ex115_store nm_loc]. rewrite FH. discriminate.
      + intros x Hx. right. split; [intros; cbn; lra|]. destruct (OT n x Hn Hx) as (B & J). split.
        * intros i j Hi Hj NE. apply (DR (ex115_q x i) (ex115_q x j)); [apply B; exact Hi|apply B; exact Hj|]. intros E. apply NE, J; assumption.
        * intros i Hi. apply (DR (ex115_c x) (ex115_q x i)); [destruct x; cbn; lia|apply B; exact Hi|]. intros E. apply (proj2 (B i Hi)). congruence.
      + intros x Hx. apply OT; assumption.
    - split; [left; reflexivity|]. split; [reflexivity|]. split; [lia|]. split; [lia|]. split; [reflexivity|]. split.
      + intros x Hx. split; [reflexivity|]. destruct x; cbn; lia.
      + split; [reflexivity|]. intros x j Hx Hj. split; [reflexivity|]. destruct x as [|[|x]]; [| |lia]; (destruct j as [|[|[|j]]]; cbn; lia).
    - destruct Hn as [->| ->]; eexists; reflexivity.
    - intros y Hy. split.
      + destruct (OT n y Hn Hy) as (B & J). split; [exact B|]. split; [exact J|].
        assert (RD : forall x a, row_dist ex115_rows ex115_rows x a = (pos ex115_rows x - pos ex115_rows a) ^ 2) by (intros; apply row_dist_1; reflexivity).
        split.
        * intros i j Hij Hj. rewrite !RD. destruct y as [|[|y]]; [| |lia]; (destruct i as [|[|[|i]]]; [| | |lia]); (destruct j as [|[|[|j]]]; [| | |lia]); try lia; cbn; lra.
        * intros a Ha NC NI j Hj. rewrite !RD. destruct y as [|[|y]]; [| |lia]; (destruct a as [|[|[|[|a]]]]; [| | | |lia]); try (cbn in NC; congruence);
            try (exfalso; apply (NI O); [lia|reflexivity]); try (exfalso; apply (NI 1%nat); [lia|reflexivity]);
            (destruct j as [|[|[|j]]]; [| | |lia]); cbn; lra.
      + destruct y as [|[|y]]; [left|right; right|lia].
        * split; [exists O|exists 1%nat]; (split; [lia|cbn; lra]).
        * intros a Ha. destruct a as [|[|[|[|a]]]]; [| | | |lia]; cbn; lra. }
  split; [reflexivity|]. split; [exact FH|].
  split; [eexists; split; [reflexivity|]; split; reflexivity|]. split; [reflexivity|exact DR].
Qed.
