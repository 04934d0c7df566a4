(** C85: the complete two-class uncertainty-quantification workflow. *)
From Coq Require Import Lia Lra.
From Verif Require Import Base NdModel RSum LinAlgModel LinAlgSpec GPModel NoiseModel MuyGPSModel GPSpec
  TensorModel TensorSpec KernelModel KernelSpec KernelCases FlowSpec PointwiseSpec LibSpec LibProofs MultiModel DriverModel
  HyperModel HyperSpec NamedModel
  ClassifyModel ClassifySpec ClassifyProofs UqProofs NeighborsModel NeighborsSpec NeighborsProofs BatchProofs
  WorkModel WorkSpec WorkProofs WorkLemmas WorkProps TrainSpec UqWorkModel UqWorkSpec UqWorkProofs.
Local Open Scope R_scope.
Local Open Scope string_scope.

(** do_classify_uq, from features and one-hot labels to masks: every test row is predicted from its nearest training rows; the
    calibration batch consists of distinct training rows whose nearest other rows have both classes; the cutoff of each objective is
    the one it selects from the error rates of the leave-one-out predictions of that batch (for the weighted objectives: the best of the
    grid); and a mask selects the test rows whose interval, of half-width cutoff times variance, contains the middle of the labels. *)
Theorem C85_workflow_partial : forall (gamma : R -> R) (kv : R -> R -> R) ls, exact_solver ls -> forall knn hnsw dist, sklearn_ok knn dist ->
  forall en method kw w g K cur test train labels N M n lo hi cl,
  lower method = "exact" -> euclidean_kw kw -> nn_init en (rows_of train) n method kw = Ok w -> (n + 1 <= N /\ 0 < M)%nat -> (0 < n)%nat -> n <> 2%nat ->
  dataset test M -> ndim test = 2%nat -> dataset train N -> ndim test = ndim train -> feature_count test = feature_count train ->
  distinct_rows train N (fun i => i) -> lk_ok K (feature_count train) cur [] ->
  shape (gp_Kout g) = [] -> at_ (gp_Kout g) [] = 1 -> 0 <= gp_var_scale g ->
  uniform_noise (gp_noise g) -> (forall x i, 0 <= noise_at (gp_noise g) None x i) ->
  one_hot labels N 2 lo hi cl -> lo < hi ->
  let k := lk_cov gamma kv K (feature_count train) cur [] in
  let mdl := lib_model gamma kv g K cur in
  forall spec (make : spec -> result mmodel) fixed batch opt sp,
  (make sp = Ok mdl /\ fixed mdl = Ok true) \/
    (exists m0, make sp = Ok m0 /\ fixed m0 = Ok false /\ batch w = Ok tt /\ opt w None m0 = Ok mdl) ->
  forall bc draw, (forall j pop c, (c <= List.length pop)%nat -> NoDup pop -> valid_choice pop c (draw j pop c)) ->
  forall objectives, Forall grid_objective objectives ->
  exists means vars masks cuts q idx nq mean var right hit,
    do_classify_uq ls knn hnsw spec make fixed batch opt en test train labels n bc method kw sp objectives draw
      = Ok (mdl, w, means, masks) /\
    shape means = [M; 2%nat] /\
    (forall x, (x < M)%nat -> nearest_rows test train N x n (q x) /\
       uq_prediction k (gp_noise g) (gp_var_scale g) test train n q cl lo hi x (fun c => at_ means [x; c]) (vars x)) /\
    NoDup idx /\ (List.length idx <= bc)%nat /\
    (forall x, (x < List.length idx)%nat -> (nth x idx O < N)%nat /\ nearest_others train N (nth x idx O) n (nq x) /\
       exists i j, (i < n)%nat /\ (j < n)%nat /\ cl (nq x i) <> cl (nq x j)) /\
    batch_predictions k (gp_noise g) (gp_var_scale g) train n idx nq cl lo hi mean var /\
    (forall x, (x < List.length idx)%nat -> (right x = true <-> is_argmax 2 (mean x) (cl (nth x idx O))) /\
       forall cut, hit cut x = true <-> interval_contains (mean x 1%nat) (cut * sqrt (var x)) 0) /\
    List.length cuts = List.length objectives /\ List.length masks = List.length objectives /\
    (forall o f, nth_error objectives o = Some f -> exists cut row,
       nth_error cuts o = Some cut /\ nth_error masks o = Some row /\
       selected_cutoff (List.length idx) right hit f cut /\
       (forall a, f = weighted_objective a ->
          (0 < how_many (List.length idx) right)%nat -> (0 < how_many (List.length idx) (fun x => negb (right x)))%nat ->
          forall cut', on_cutoff_grid cut' ->
            a * (1 - fraction (List.length idx) (fun x => negb (right x)) (hit cut)) + fraction (List.length idx) right (hit cut) <=
            a * (1 - fraction (List.length idx) (fun x => negb (right x)) (hit cut')) + fraction (List.length idx) right (hit cut')) /\
       List.length row = M /\
       forall x, (x < M)%nat -> (nth x row false = true <->
         interval_contains (at_ means [x; 1%nat]) (cut * vars x) ((lo + hi) / 2))).
Proof.
  intros gamma kv ls EX knn hnsw dist Hsk en method kw w g K cur test train labels N M n lo hi cl Hm He Hi Hn Hn0 N2 D1 T2 D2 ND FC DR OK SK K1 SC
    UN NP OH LH k mdl spec make fixed batch opt sp MK bc draw HD objectives HO.
  apply (classify_uq_workflow gamma kv ls EX knn hnsw dist Hsk en method kw w g K cur test train labels N M n lo hi cl); auto.
Qed.
Print Assumptions C85_workflow_partial.

(** The example objectives return grid positions. *)
Theorem C85_example_objectives : Forall grid_objective example_lambdas.
Proof. exact lambdas_grid. Qed.
Print Assumptions C85_example_objectives.

(** They are, in order: the first three weights double the cost of a missed mistake, the fourth
    weighs it ten times, and the last weighs the two rates by the counts of mistakes and hits.
    Each returns the first grid position of a least cost, where the rates are numbers. *)
Theorem C85_example_objectives_are : forall (al be : nat -> num) (a b : nat -> R) hits misses,
  (forall i, al i = Fin (a i)) -> (forall i, be i = Fin (b i)) ->
  List.length example_lambdas = 5%nat /\
  forall j w v, nth_error [(1, 1); (2, 1); (4, 1); (10, 1); (INR misses, INR hits)] j = Some (w, v) ->
    exists f p, nth_error example_lambdas j = Some f /\ f al be hits misses = Z.of_nat p /\ (p < grid_count)%nat /\
      (forall i, (i < grid_count)%nat -> w * a p + v * b p <= w * a i + v * b i) /\
      (forall i, (i < p)%nat -> w * a p + v * b p < w * a i + v * b i).
Proof. exact lambdas_are. Qed.
Print Assumptions C85_example_objectives_are.

(** Where all neighbours of a test row agree, its variance is 0 and no mask selects it, whatever the objectives. *)
Theorem C85_unanimous_never_ambiguous : forall k m scale test train n q cl lo hi x mean var cut, lo < hi ->
  uq_prediction k m scale test train n q cl lo hi x mean var -> (forall j, (j < n)%nat -> cl (q x j) = cl (q x O)) ->
  ~ interval_contains (mean 1%nat) (cut * var) ((lo + hi) / 2).
Proof. exact unanimous_clear. Qed.
Print Assumptions C85_unanimous_never_ambiguous.

(** Feature vectors with one axis are refused, although do_classify and do_regress accept them. *)
Theorem C85_one_axis_refuted : forall ls knn hnsw m test train w labels M, shape test = [M] ->
  work_classify_uq ls knn hnsw m test train w labels = Err ValueError.
Proof. intros ls knn hnsw m test train w labels M H. unfold work_classify_uq. rewrite H. reflexivity. Qed.
Print Assumptions C85_one_axis_refuted.

(** ** The hypotheses are satisfiable *)
Definition ex85_train : nd R := mkNd [4; 2]%nat (fun idx => match idx with
  | [a; O] => INR a | [3%nat; _] => 1 | _ => 0 end).
Definition ex85_test : nd R := mkNd [2; 2]%nat (fun idx => match idx with [O; _] => 1 / 3 | _ => 5 / 2 end).
Definition ex85_cl (i : nat) : nat := (i mod 2)%nat.
Definition ex85_labels : nd R := mkNd [4; 2]%nat (fun idx => match idx with
  | [i; c] => if (c =? ex85_cl i)%nat then 1 else -1 | _ => 0 end).

Example C85_sat : exists knn dist w, sklearn_ok knn dist /\ lower "exact" = "exact" /\ euclidean_kw [] /\
  nn_init false (rows_of ex85_train) 3 "exact" [] = Ok w /\ (3 + 1 <= 4)%nat /\
  dataset ex85_test 2 /\ ndim ex85_test = 2%nat /\ dataset ex85_train 4 /\ ndim ex85_test = ndim ex85_train /\
  feature_count ex85_test = feature_count ex85_train /\ distinct_rows ex85_train 4 (fun i => i) /\
  lk_ok ex80_K (feature_count ex85_train) (fun _ => 1) [] /\
  shape (gp_Kout ex80_gp) = [] /\ at_ (gp_Kout ex80_gp) [] = 1 /\ 0 <= gp_var_scale ex80_gp /\
  uniform_noise (gp_noise ex80_gp) /\ (forall x i, 0 <= noise_at (gp_noise ex80_gp) None x i) /\
  one_hot ex85_labels 4 2 (-1) 1 ex85_cl /\
  (exists draw : nat -> list nat -> nat -> list nat,
     forall j pop c, (c <= List.length pop)%nat -> NoDup pop -> valid_choice pop c (draw j pop c)).
Proof.
  exists ref_knn, (fun _ => ref_dist). eexists. split; [apply ref_ok|]. split; [reflexivity|]. split; [unfold euclidean_kw; cbn; auto|].
  split; [reflexivity|]. split; [lia|]. split; [right; exists 2%nat; reflexivity|]. split; [reflexivity|].
  split; [right; exists 2%nat; reflexivity|].
  split; [reflexivity|]. split; [reflexivity|]. split.
  { intros i j Hi Hj Hij. exists O. split; [cbn; lia|]. unfold feature, ex85_train. cbn [shape at_]. intros E.
    assert (E' : INR i = INR j) by (destruct i as [|[|[|[|i]]]], j as [|[|[|[|j]]]]; exact E). apply INR_eq in E'. lia. }
  split. { split; [reflexivity|]. split; [cbn; lia|]. split; [intros f _; cbn; lra|reflexivity]. }
  split; [reflexivity|]. split; [reflexivity|]. split; [cbn; lra|]. split; [left; reflexivity|]. split; [intros; cbn; lra|].
  split.
  { split; [lra|]. split; [reflexivity|]. intros i Hi. split; [unfold ex85_cl; apply Nat.mod_upper_bound; lia|]. reflexivity. }
  exists (fun _ pop c => firstn c pop). intros _ pop c Hc NDp. split; [rewrite firstn_length; lia|]. split.
  - clear Hc. revert c. induction NDp as [|a l NI _ IH]; intros [|c]; cbn; constructor; auto. intros C. apply NI.
    rewrite <- (firstn_skipn c l). apply in_or_app. auto.
  - intros a Ha. rewrite <- (firstn_skipn c pop). apply in_or_app. auto.
Qed.
