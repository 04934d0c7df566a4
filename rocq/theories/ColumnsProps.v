(** Property theorems C99: the order and the units of the feature columns. *)
From Coq Require Import Lia Lra.
From Verif Require Import Base NdModel RSum LinAlgModel LinAlgSpec GPModel NoiseModel MuyGPSModel GPSpec ScaleSpec
  TensorModel TensorSpec HyperModel HyperSpec NamedModel NamedSpec KernelModel KernelSpec FlowModel FlowSpec PointwiseSpec LibSpec
  LossModel LossSpec ChassisModel ChassisSpec MultiModel DriverModel ClassifyModel NeighborsModel NeighborsSpec NeighborsProofs BatchProofs
  WorkModel WorkSpec WorkLemmas WorkProps TrainModel TrainSpec TrainProps SimSpec UnitsSpec SimTrainSpec ColumnsSpec ColumnsProofs.
Local Open Scope R_scope.
Local Open Scope string_scope.

(** Given the neighbours: shuffling the columns and measuring each in its own unit, with the length scales shuffled and rescaled alike,
    changes no prediction. *)
Theorem C99_indices : forall ls, exact_solver ls -> forall gamma kv g K cur cur' nn test train test' train' targets N M n q ex p a t,
  lk_ok K (feature_count train) cur [] -> same_smoothness K cur cur' ->
  recoded_scales p a (feature_count train) (lk_def K) (lk_def K) cur cur' ->
  recoded p a t test test' M -> recoded p a t train train' N ->
  dataset test M -> dataset train N -> ndim test = ndim train -> feature_count test = feature_count train ->
  shape targets = N :: ex -> no_coincidence ex [n] ->
  shape (gp_Kout g) = [] -> at_ (gp_Kout g) [] = 1 -> 0 <= gp_var_scale g ->
  index_matrix nn M n N q -> noise_fits (gp_noise g) M n -> well_posed (gp_noise g) train M n q ->
  exists mean var mean' var',
    regress_from_indices ls (lib_model gamma kv g K cur) (arange M) nn test train targets = Ok (mean, var) /\
    regress_from_indices ls (lib_model gamma kv g K cur') (arange M) nn test' train' targets = Ok (mean', var') /\
    forall x, (x < M)%nat -> at_ var' [x] = at_ var [x] /\ forall e, inb ex e -> at_ mean' (x :: e) = at_ mean (x :: e).
Proof. intros ls EX gamma kv. exact (recoded_indices gamma kv ls EX). Qed.
Print Assumptions C99_indices.

(** With the neighbours found by the library: shuffling the columns, with one unit for all of them, changes no prediction of a row whose
    distances are not tied. *)
Theorem C99_predictions : forall ls, exact_solver ls -> forall gamma kv knn hnsw dist, sklearn_ok knn dist ->
  forall en method kw w en' method' kw' w' g K cur cur' test train test' train' targets N M n ex c p t,
  lower method = "exact" -> euclidean_kw kw -> nn_init en (rows_of train) n method kw = Ok w ->
  lower method' = "exact" -> euclidean_kw kw' -> nn_init en' (rows_of train') n method' kw' = Ok w' -> (0 < n <= N /\ 0 < M)%nat ->
  lk_ok K (feature_count train) cur [] -> same_smoothness K cur cur' -> 0 < c ->
  recoded_scales p (fun _ => c) (feature_count train) (lk_def K) (lk_def K) cur cur' ->
  recoded p (fun _ => c) t test test' M -> recoded p (fun _ => c) t train train' N ->
  dataset test M -> dataset train N -> ndim test = ndim train -> feature_count test = feature_count train ->
  shape targets = N :: ex -> no_coincidence ex [n] ->
  shape (gp_Kout g) = [] -> at_ (gp_Kout g) [] = 1 -> 0 <= gp_var_scale g ->
  noise_fits (gp_noise g) M n -> sound_noise (gp_noise g) train N M n ->
  exists mean var mean' var',
    regress_any ls knn hnsw (Univariate (lib_model gamma kv g K cur)) test train w targets = Ok (mean, var) /\
    regress_any ls knn hnsw (Univariate (lib_model gamma kv g K cur')) test' train' w' targets = Ok (mean', var') /\
    forall x, (x < M)%nat -> no_ties test train N x ->
      at_ var' [x] = at_ var [x] /\ forall e, inb ex e -> at_ mean' (x :: e) = at_ mean (x :: e).
Proof. intros ls EX gamma kv knn hnsw dist Hsk. exact (recoded_any gamma kv ls EX knn hnsw dist Hsk). Qed.
Print Assumptions C99_predictions.

(** Training: the objective of an anisotropic model is the same function of its length scales, once they are shuffled and rescaled like the
    columns they belong to. *)
Theorem C99_objective : forall ls, exact_solver ls -> forall sld eps gamma kv s F l kw draws train train' targets ix nn N b n c q names x0 bounds t t' v p a sh,
  model_ok s F -> bounds_ok s F -> positive_bounds s F -> k_ls (m_kernel (f_attr F)) = LSVector v ->
  (forall e, In e (v_elems v) -> p_fixed (st_cell s (nm_loc e)) = false) -> leading_free s (k_ls (m_kernel (f_attr F))) ->
  get_opt_params s (f_attr F) = Ok (names, x0, bounds) -> (f_kind F = FixedScale \/ ~ In "noise" names) ->
  trainable s F train b n -> loo_well_posed (full_noise s F) train b n c q ->
  batch_ok train targets ix nn N b n c q -> loss_kw_ok kw -> scores_vectors l ->
  recoded p a sh train train' N -> (forall f, (f < feature_count train)%nat -> 0 < a f) ->
  full_train_tensors F ix nn train targets = Ok t -> full_train_tensors F ix nn train' targets = Ok t' ->
  forall x x', in_box x bounds -> in_box x' bounds -> recoded_candidate p a (v_elems v) names x x' -> exists y,
    obj_fn ls sld eps gamma kv s F l kw None draws (tr_pair t) (tr_cross t) (tr_nn_targets t) (tr_targets t) (combine names x) = Ok y /\
    obj_fn ls sld eps gamma kv s F l kw None draws (tr_pair t') (tr_cross t') (tr_nn_targets t') (tr_targets t') (combine names x') = Ok y.
Proof. exact objective_recoded. Qed.
Print Assumptions C99_objective.

(** Three training points of the plane, the columns exchanged, the first one then measured in halves; an RBF model with two length scales in
    [1/2, 4], fixed noise, analytic scale; candidates (1, 2) and (2, 2). *)
Definition ex99_train : nd R := mkNd [3; 2]%nat (fun idx => match idx with
  | [O; O] => 0 | [O; _] => 1 | [1%nat; O] => 1 | [1%nat; _] => 3 | [_; O] => 5 | _ => 0 end).
Definition ex99_train' : nd R := mkNd [3; 2]%nat (fun idx => match idx with [i; O] => at_ ex99_train [i; 1%nat] | [i; _] => 2 * at_ ex99_train [i; O] + 1 | _ => 0 end).
Definition ex99_p (f : nat) : nat := (1 - f)%nat.
Definition ex99_a (f : nat) : R := match f with O => 2 | _ => 1 end.
Definition ex99_t (f : nat) : R := match f with O => 1 | _ => 0 end.
Definition ex99_store : store := mkStore 3 (fun l => match l with
  | O => mkParam (Fin (1/100)) (Fin 0, Fin 0) true
  | _ => mkParam (Fin 1) (Fin (1/2), Fin 4) false end).
Definition ex99_vec : nvec := mkVec "length_scale" [mkNamed "length_scale0" 1; mkNamed "length_scale1" 2].
Definition ex99_model : model := mkModel (KRbf (LSVector ex99_vec)) (NHomo (mkNamed "noise" 0)).
Definition ex99 : full :=
  mkFull ex99_model (model_make ex99_store ex99_model) F2 (mkNd [] (fun _ => 0)) (AnalyticScale 1) 1 1.
Example C99_sat : model_ok ex99_store ex99 /\ bounds_ok ex99_store ex99 /\ positive_bounds ex99_store ex99 /\
  k_ls (m_kernel (f_attr ex99)) = LSVector ex99_vec /\
  (forall e, In e (v_elems ex99_vec) -> p_fixed (st_cell ex99_store (nm_loc e)) = false) /\
  leading_free ex99_store (k_ls (m_kernel (f_attr ex99))) /\
  get_opt_params ex99_store (f_attr ex99) = Ok (["length_scale0"; "length_scale1"], [Fin 1; Fin 1], [(Fin (1/2), Fin 4); (Fin (1/2), Fin 4)]) /\
  ~ In "noise" ["length_scale0"; "length_scale1"] /\
  trainable ex99_store ex99 ex99_train 2 2 /\
  (exists ix nn, batch_ok ex99_train ex80_targets ix nn 3 2 2 (fun x => match x with O => 2%nat | _ => O end)
      (fun x j => match x, j with O, O => 1%nat | O, _ => O | _, O => 1%nat | _, _ => 2%nat end)) /\
  loo_well_posed (full_noise ex99_store ex99) ex99_train 2 2 (fun x => match x with O => 2%nat | _ => O end)
      (fun x j => match x, j with O, O => 1%nat | O, _ => O | _, O => 1%nat | _, _ => 2%nat end) /\
  recoded ex99_p ex99_a ex99_t ex99_train ex99_train' 3 /\ (forall f, (f < feature_count ex99_train)%nat -> 0 < ex99_a f) /\
  in_box [1; 2] [(Fin (1/2), Fin 4); (Fin (1/2), Fin 4)] /\ in_box [2; 2] [(Fin (1/2), Fin 4); (Fin (1/2), Fin 4)] /\
  recoded_candidate ex99_p ex99_a (v_elems ex99_vec) ["length_scale0"; "length_scale1"] [1; 2] [2; 2].
Proof.
  assert (BX : forall r, 1/2 <= r <= 4 -> ~ nlt (Fin r) (Fin (1/2)) /\ ~ nlt (Fin 4) (Fin r)) by (intros r H; split; intros C; inversion C; lra).
  split.
  { split; [split; [constructor; reflexivity|split; [exact I|reflexivity]]|]. split; [discriminate|]. split.
    - intros n Hn. cbn in Hn. repeat destruct Hn as [<-|Hn]; cbn; try lia; destruct Hn.
    - cbn. repeat (constructor; [cbn; intuition discriminate|]). constructor. }
  split.
  { intros n Hn Hf. cbn in Hn. repeat destruct Hn as [<-|Hn]; cbn in *; try discriminate; try destruct Hn;
    (split; [discriminate|]; split; [discriminate|]; intros C; inversion C; lra). }
  split.
  { intros n Hn Hf. cbn in Hn. repeat destruct Hn as [<-|Hn]; cbn in *; try discriminate; try destruct Hn; exists (1/2); (split; [reflexivity|lra]). }
  split; [reflexivity|]. split.
  { intros e He. cbn in He. repeat destruct He as [<-|He]; try reflexivity; destruct He. }
  split; [exists 2%nat; reflexivity|]. split; [reflexivity|]. split; [intros [H|[H|[]]]; discriminate|].
  split.
  { split; [reflexivity|]. split.
    - eexists. split; [reflexivity|]. split.
      { exists (mkStore 1 (st_cell ex99_store)), [0; 0]%nat, 0%nat. split; [reflexivity|]. split; [reflexivity|].
        split; [constructor|]. split; [apply Nat.le_0_l|reflexivity]. }
      split; [apply Nat.lt_0_succ|]. split; [|reflexivity]. intros f Hf. change (feature_count ex99_train) with 2%nat in Hf.
      destruct f as [|[|f]]; [cbn; lra|cbn; lra|lia].
    - split; [exact I|]. cbn. lia. }
  split.
  { exists (index_vector [2; 0]%nat), (index_array 2 [[1; 0]; [1; 2]]%nat).
    split; [right; eexists; reflexivity|]. split; [reflexivity|]. split; [lia|]. split; [lia|]. split; [reflexivity|]. split.
    - intros x Hx. destruct x as [|[|x]]; [| |lia]; (split; [reflexivity|lia]).
    - split; [reflexivity|]. intros x j Hx Hj. destruct x as [|[|x]]; [| |lia]; (destruct j as [|[|j]]; [| |lia]); (split; [reflexivity|lia]). }
  split. { intros x Hx. left. intros i Hi. cbn. lra. }
  split.
  { split; [|split; [reflexivity|]].
    - change (feature_count ex99_train) with 2%nat. split; [intros f Hf; unfold ex99_p; lia|]. intros f g Hf Hg. unfold ex99_p. lia.
    - intros i f Hi Hf. change (feature_count ex99_train) with 2%nat in Hf. unfold feature, ex99_train', ex99_p, ex99_a, ex99_t. cbn [shape at_ ndim].
      destruct f as [|[|f]]; [| |lia]; cbn [Nat.sub]; unfold ex99_train; cbn [at_ shape]; (destruct i as [|[|[|i]]]; [| | |lia]); lra. }
  split. { intros f _. unfold ex99_a. destruct f; lra. }
  split; [repeat constructor; apply BX; lra|]. split; [repeat constructor; apply BX; lra|].
  split.
  - intros f e e' He He'. destruct f as [|[|f]]; cbn in He; [| |destruct f; discriminate]; injection He as <-; cbn in He'; injection He' as <-; eexists;
      (split; [reflexivity|]); cbn [combine dget find fst snd String.eqb nm_name ex99_a]; unfold dget; cbn; apply (f_equal Some); ring.
  - intros h NE. pose proof (NE _ (or_introl eq_refl)) as N0. pose proof (NE _ (or_intror (or_introl eq_refl))) as N1. cbn [nm_name] in *.
    unfold dget. cbn [combine find fst snd]. destruct (String.eqb "length_scale0" h) eqn:Q0; [apply String.eqb_eq in Q0; congruence|].
    destruct (String.eqb "length_scale1" h) eqn:Q1; [apply String.eqb_eq in Q1; congruence|]. reflexivity.
Qed.
