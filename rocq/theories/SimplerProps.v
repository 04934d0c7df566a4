(** A richer model whose extra freedom is not used predicts and trains like the simpler one (C114). *)
From Coq Require Import Lia Lra.
From Verif Require Import Base NdModel NdFacts RSum LinAlgModel LinAlgSpec Gauss GPModel NoiseModel MuyGPSModel GPSpec GPTheorems
  TensorModel TensorSpec HyperModel HyperSpec NamedModel NamedSpec KernelModel KernelSpec FlowSpec PointwiseSpec LibSpec
  LossModel LossSpec ChassisModel ChassisSpec MultiModel DriverModel ClassifyModel NeighborsModel NeighborsSpec NeighborsProofs BatchProofs
  WorkModel WorkSpec WorkLemmas WorkProps TrainModel TrainSpec TrainProofs TrainProps BestSpec ExactLooSpec FairSpec ColumnsProps SimplerSpec SimplerProofs SimplerProofs2.
Local Open Scope R_scope.
Local Open Scope string_scope.

(** * C114 *)
(** Predictions depend on the model only through its covariance function, its noise variances and its variance scale. *)
Theorem C114_same_covariance : forall gamma kv ls, exact_solver ls -> forall knn hnsw dist, sklearn_ok knn dist ->
  forall en method kw w test train targets N M n ex g K cur kkw g' K' cur' kkw',
  regression en method kw w test train targets N M n ex -> documented g K cur kkw train N M n ->
  lk_ok K' (feature_count train) cur' kkw' -> noise_fits (gp_noise g') M n -> same_but_noise g g' ->
  (forall v, lk_cov gamma kv K' (feature_count train) cur' kkw' v = lk_cov gamma kv K (feature_count train) cur kkw v) ->
  (forall x i, (x < M)%nat -> (i < n)%nat -> noise_at (gp_noise g') None x i = noise_at (gp_noise g) None x i) ->
  same_prediction (regress_any ls knn hnsw (Univariate (mkMm g (lk_call gamma kv K cur kkw))) test train w targets)
                  (regress_any ls knn hnsw (Univariate (mkMm g' (lk_call gamma kv K' cur' kkw'))) test train w targets).
Proof. intros gamma kv ls EX knn hnsw dist Hsk. exact (same_covariance gamma kv ls EX knn hnsw dist Hsk). Qed.
Print Assumptions C114_same_covariance.

(** Only the length scale of every feature matters: an anisotropic kernel with equal length scales is the isotropic one; a length scale given
    by keyword is the same as one stored in the model. *)
Theorem C114_length_scales : forall gamma kv ls, exact_solver ls -> forall knn hnsw dist, sklearn_ok knn dist ->
  forall en method kw w test train targets N M n ex g K cur kkw d cur' kkw',
  regression en method kw w test train targets N M n ex -> documented g K cur kkw train N M n ->
  lk_ok (redeform K d) (feature_count train) cur' kkw' ->
  (forall f, (f < feature_count train)%nat -> scale_of d cur' kkw' f = scale_of (lk_def K) cur kkw f) ->
  same_prediction (regress_any ls knn hnsw (Univariate (mkMm g (lk_call gamma kv K cur kkw))) test train w targets)
                  (regress_any ls knn hnsw (Univariate (mkMm g (lk_call gamma kv (redeform K d) cur' kkw'))) test train w targets).
Proof.
  intros gamma kv ls EX knn hnsw dist Hsk en method kw w test train targets N M n ex g K cur kkw d cur' kkw' RG DG OK HS.
  apply (same_covariance gamma kv ls EX knn hnsw dist Hsk en method kw w test train targets N M n ex); auto.
  - apply DG.
  - split; reflexivity.
  - intros v. apply redeform_cov; auto. apply DG.
Qed.
Print Assumptions C114_length_scales.

(** A Matern kernel of infinite smoothness is the RBF kernel. *)
Theorem C114_smooth_matern : forall gamma kv ls, exact_solver ls -> forall knn hnsw dist, sklearn_ok knn dist ->
  forall en method kw w test train targets N M n ex g d sm p cur kkw d' cur' kkw',
  regression en method kw w test train targets N M n ex -> documented g (LMatern d sm p) cur kkw train N M n ->
  p_fixed p = true -> p_val p = PInf -> lk_ok (LRbf d') (feature_count train) cur' kkw' ->
  (forall f, (f < feature_count train)%nat -> scale_of d' cur' kkw' f = scale_of d cur kkw f) ->
  same_prediction (regress_any ls knn hnsw (Univariate (mkMm g (lk_call gamma kv (LMatern d sm p) cur kkw))) test train w targets)
                  (regress_any ls knn hnsw (Univariate (mkMm g (lk_call gamma kv (LRbf d') cur' kkw'))) test train w targets).
Proof.
  intros gamma kv ls EX knn hnsw dist Hsk en method kw w test train targets N M n ex g d sm p cur kkw d' cur' kkw' RG DG PF PV OK HS.
  apply (same_covariance gamma kv ls EX knn hnsw dist Hsk en method kw w test train targets N M n ex); auto.
  - apply DG.
  - split; reflexivity.
  - intros v. apply infinite_cov; auto. unfold formula_for. rewrite PF, PV. reflexivity.
Qed.
Print Assumptions C114_smooth_matern.

(** Heteroscedastic noise with the same variance everywhere is homoscedastic noise; homoscedastic noise 0 is no noise. *)
Theorem C114_noise : forall gamma kv ls, exact_solver ls -> forall knn hnsw dist, sklearn_ok knn dist ->
  forall en method kw w test train targets N M n ex g g' K cur kkw,
  regression en method kw w test train targets N M n ex -> documented g K cur kkw train N M n -> same_but_noise g g' ->
  (exists v t, gp_noise g = HomoscedasticNoise v /\ gp_noise g' = HeteroscedasticNoise t /\ shape t = [M; n] /\
     forall x i, (x < M)%nat -> (i < n)%nat -> at_ t [x; i] = v) \/
  (gp_noise g = NullNoise /\ gp_noise g' = HomoscedasticNoise 0) ->
  same_prediction (regress_any ls knn hnsw (Univariate (mkMm g (lk_call gamma kv K cur kkw))) test train w targets)
                  (regress_any ls knn hnsw (Univariate (mkMm g' (lk_call gamma kv K cur kkw))) test train w targets).
Proof.
  intros gamma kv ls EX knn hnsw dist Hsk en method kw w test train targets N M n ex g g' K cur kkw RG DG SB H.
  apply (same_covariance gamma kv ls EX knn hnsw dist Hsk en method kw w test train targets N M n ex); auto.
  - apply DG.
  - destruct H as [(v & t & _ & -> & St & _)|(_ & ->)]; [|exact I]. split; [exact St|]. destruct RG as (_ & _ & _ & Hn & _). lia.
  - intros x i Hx Hi. destruct H as [(v & t & -> & -> & _ & Hv)|(-> & ->)]; cbn; auto.
Qed.
Print Assumptions C114_noise.

(** A multivariate model is one univariate model per response column; its variances carry the scale of the submodel once more (C44). *)
Theorem C114_multivariate_columns : forall gamma kv ls, exact_solver ls -> forall knn hnsw dist, sklearn_ok knn dist ->
  forall en method kw w (ms : list (gp * libkernel * (nat -> R))) test train targets F N M n r,
  regression en method kw w test train targets N M n [r] -> n <> 1%nat -> shape test = [M; F] -> shape train = [N; F] ->
  ms <> [] -> (List.length ms <= r)%nat -> (forall g K cur, In (g, K, cur) ms -> documented g K cur [] train N M n) ->
  exists mean var,
    regress_any ls knn hnsw (Multivariate (map (fun e => lib_model gamma kv (fst (fst e)) (snd (fst e)) (snd e)) ms)) test train w targets = Ok (mean, var) /\
    shape mean = [M; r] /\ shape var = [M; List.length ms] /\
    forall i g K cur t, nth_error ms i = Some (g, K, cur) -> is_column targets N i t ->
      exists mi vi, regress_any ls knn hnsw (Univariate (lib_model gamma kv g K cur)) test train w t = Ok (mi, vi) /\
        forall x, (x < M)%nat -> at_ mean [x; i] = at_ mi [x] /\ at_ var [x; i] = gp_scale g * at_ vi [x].
Proof. intros gamma kv ls EX knn hnsw dist Hsk. exact (multi_columns gamma kv ls EX knn hnsw dist Hsk). Qed.
Print Assumptions C114_multivariate_columns.

(** With the same submodel for every column, the means are those of the univariate model on the response matrix. *)
Theorem C114_multivariate_shared : forall gamma kv ls, exact_solver ls -> forall knn hnsw dist, sklearn_ok knn dist ->
  forall en method kw w g K cur test train targets F N M n r,
  regression en method kw w test train targets N M n [r] -> n <> 1%nat -> shape test = [M; F] -> shape train = [N; F] -> (0 < r)%nat ->
  documented g K cur [] train N M n ->
  exists mean var mean' var',
    regress_any ls knn hnsw (Multivariate (repeat (lib_model gamma kv g K cur) r)) test train w targets = Ok (mean, var) /\
    regress_any ls knn hnsw (Univariate (lib_model gamma kv g K cur)) test train w targets = Ok (mean', var') /\
    nd_eq mean mean' /\ shape var = [M; r] /\ shape var' = [M] /\
    forall x i, (x < M)%nat -> (i < r)%nat -> at_ var [x; i] = gp_scale g * at_ var' [x].
Proof. intros gamma kv ls EX knn hnsw dist Hsk. exact (multi_shared gamma kv ls EX knn hnsw dist Hsk). Qed.
Print Assumptions C114_multivariate_shared.

(** The variance is really different as soon as the scale is not 1: see C44. *)

(** Training: points of two boxes that describe the same Gaussian process have the same objective value, whichever parameters are optimized,
    fixed, shared between the features or separate. *)
Theorem C114_objective : forall gamma kv ls, exact_solver ls -> forall sld eps s F names x0 bounds s2 F2 names2 x02 bounds2
    train targets ix nn N b n c q l kw draws draws2 t t2 x x2,
  training s F names x0 bounds train N b n c q -> training s2 F2 names2 x02 bounds2 train N b n c q ->
  batch_ok train targets ix nn N b n c q -> loss_kw_ok kw -> scores_vectors l ->
  full_train_tensors F ix nn train targets = Ok t -> full_train_tensors F2 ix nn train targets = Ok t2 ->
  in_box x bounds -> in_box x2 bounds2 -> corresponding s F names x s2 F2 names2 x2 (feature_count train) b n ->
  exists v,
    obj_fn ls sld eps gamma kv s F l kw None draws (tr_pair t) (tr_cross t) (tr_nn_targets t) (tr_targets t) (combine names x) = Ok v /\
    obj_fn ls sld eps gamma kv s2 F2 l kw None draws2 (tr_pair t2) (tr_cross t2) (tr_nn_targets t2) (tr_targets t2) (combine names2 x2) = Ok v.
Proof. intros gamma kv ls EX sld eps. exact (objective_simpler gamma kv ls EX sld eps). Qed.
Print Assumptions C114_objective.

(** So a model whose box contains every process of another model's box is trained at least as well: its best objective value is no smaller. *)
Theorem C114_richer_no_worse : forall gamma kv ls, exact_solver ls -> forall sld eps s F names x0 bounds s2 F2 names2 x02 bounds2
    train targets ix nn N b n c q l kw draws draws2 t t2 best2,
  training s F names x0 bounds train N b n c q -> training s2 F2 names2 x02 bounds2 train N b n c q ->
  batch_ok train targets ix nn N b n c q -> loss_kw_ok kw -> scores_vectors l ->
  full_train_tensors F ix nn train targets = Ok t -> full_train_tensors F2 ix nn train targets = Ok t2 ->
  let obj := fun x => obj_fn ls sld eps gamma kv s F l kw None draws (tr_pair t) (tr_cross t) (tr_nn_targets t) (tr_targets t) (combine names x) in
  let obj2 := fun x => obj_fn ls sld eps gamma kv s2 F2 l kw None draws2 (tr_pair t2) (tr_cross t2) (tr_nn_targets t2) (tr_targets t2) (combine names2 x) in
  (forall x, in_box x bounds -> exists x2, in_box x2 bounds2 /\ corresponding s F names x s2 F2 names2 x2 (feature_count train) b n) ->
  in_box best2 bounds2 -> (forall y vy vo, in_box y bounds2 -> obj2 y = Ok vy -> obj2 best2 = Ok vo -> vy <= vo) ->
  forall x, in_box x bounds -> exists v vo, obj x = Ok v /\ obj2 best2 = Ok vo /\ v <= vo.
Proof. intros gamma kv ls EX sld eps. exact (richer_no_worse gamma kv ls EX sld eps). Qed.
Print Assumptions C114_richer_no_worse.

(** The hypotheses hold for the points (0,1), (1,3), (5,0) of C99_sat, two of them predicted from the two nearest: an isotropic RBF kernel, the
    same with two equal length scales, and a Matern kernel of infinite smoothness; noise 1/10 for all or as a tensor. *)
Definition ex114_test : nd R := mkNd [2; 2]%nat (fun idx => INR (hd O idx)).
Definition ex114_targets : nd R := mkNd [3; 3]%nat (fun idx => INR (hd O idx)).
Definition ex114_iso : deformation := Iso F2 (mkNamed "length_scale" 0).
Definition ex114_aniso : deformation := Aniso F2 (snd (vec_init empty_store "length_scale" [0; 0]%nat)).
Definition ex114_inf : param := mkParam PInf (Fin 0, Fin 0) true.
Definition ex114_gp (m : noise_model) : gp := mkGp m FixedScale 3 3 (mkNd [] (fun _ => 1)).
Example C114_sat : exists knn dist w, sklearn_ok knn dist /\
  regression false "exact" [] w ex114_test ex99_train ex114_targets 3 2 2 [3%nat] /\
  documented (ex114_gp (HomoscedasticNoise (1/10))) (LRbf ex114_iso) (fun _ => 2) [] ex99_train 3 2 2 /\
  documented (ex114_gp (HomoscedasticNoise (1/10))) (LMatern (Iso L2 (mkNamed "length_scale" 0)) (mkNamed "smoothness" 1) ex114_inf) (fun _ => 2) [] ex99_train 3 2 2 /\
  lk_ok (redeform (LRbf ex114_iso) ex114_aniso) (feature_count ex99_train) (fun _ => 2) [] /\
  (forall f, (f < feature_count ex99_train)%nat -> scale_of ex114_aniso (fun _ => 2) [] f = scale_of ex114_iso (fun _ => 2) [] f) /\
  same_but_noise (ex114_gp (HomoscedasticNoise (1/10))) (ex114_gp (HeteroscedasticNoise (mkNd [2; 2]%nat (fun _ => 1/10)))).
Proof.
  exists ref_knn, (fun _ => ref_dist). eexists. split; [apply ref_ok|].
  assert (SC : forall m, sound_noise (HomoscedasticNoise (1/10)) ex99_train 3 2 m) by (intros m; left; intros; cbn; lra).
  split.
  { split; [reflexivity|]. split; [unfold euclidean_kw; cbn; auto|]. split; [reflexivity|]. split; [lia|]. split; [right; eexists; reflexivity|].
    split; [right; eexists; reflexivity|]. split; [reflexivity|]. split; [reflexivity|]. split; [reflexivity|].
    split; [cbn; lia|]. intros [|k] Hk; cbn in *; lia. }
  split.
  { split; [split; [reflexivity|]; split; [apply Nat.lt_0_succ|]; split; [intros f _; cbn; lra|reflexivity]|].
    split; [reflexivity|]. split; [reflexivity|]. split; [cbn; lra|]. split; [exact I|apply SC]. }
  split.
  { split; [split; [reflexivity|]; split; [apply Nat.lt_0_succ|]; split; [intros f _; cbn; lra|]|].
    - split; [reflexivity|]. split; [reflexivity|discriminate].
    - split; [reflexivity|]. split; [reflexivity|]. split; [cbn; lra|]. split; [exact I|apply SC]. }
  assert (SE : forall f, (f < feature_count ex99_train)%nat -> scale_of ex114_aniso (fun _ => 2) [] f = 2).
  { intros f Hf. change (feature_count ex99_train) with 2%nat in Hf. destruct f as [|[|f]]; [reflexivity|reflexivity|lia]. }
  split.
  { split; [|split; [apply Nat.lt_0_succ|split; [|reflexivity]]].
    - exists empty_store, [0; 0]%nat, 0%nat. split; [reflexivity|]. split; [reflexivity|]. split; [constructor|]. split; [apply Nat.le_0_l|reflexivity].
    - intros f Hf. cbn [redeform lk_def]. rewrite SE by exact Hf. lra. }
  split; [intros f Hf; rewrite SE by exact Hf; reflexivity|]. split; reflexivity.
Qed.

(** Training: the model of C99_sat with two length scales in [1/2, 4] and the isotropic model with one; (l) corresponds to (l, l). *)
Definition ex114_store : store := mkStore 2 (fun l => match l with
  | O => mkParam (Fin (1/100)) (Fin 0, Fin 0) true
  | _ => mkParam (Fin 1) (Fin (1/2), Fin 4) false end).
Definition ex114_model : model := mkModel (KRbf (LSScalar (mkNamed "length_scale" 1))) (NHomo (mkNamed "noise" 0)).
Definition ex114 : full :=
  mkFull ex114_model (model_make ex114_store ex114_model) F2 (mkNd [] (fun _ => 0)) (AnalyticScale 1) 1 1.
Definition ex114_c (x : nat) : nat := match x with O => 2%nat | _ => O end.
Definition ex114_q (x j : nat) : nat := match x, j with O, O => 1%nat | O, _ => O | _, O => 1%nat | _, _ => 2%nat end.
Example C114_training_sat :
  training ex114_store ex114 ["length_scale"] [Fin 1] [(Fin (1/2), Fin 4)] ex99_train 3 2 2 ex114_c ex114_q /\
  training ex99_store ex99 ["length_scale0"; "length_scale1"] [Fin 1; Fin 1] [(Fin (1/2), Fin 4); (Fin (1/2), Fin 4)] ex99_train 3 2 2 ex114_c ex114_q /\
  (exists ix nn, batch_ok ex99_train ex80_targets ix nn 3 2 2 ex114_c ex114_q) /\
  forall x, in_box x [(Fin (1/2), Fin 4)] -> exists x2, in_box x2 [(Fin (1/2), Fin 4); (Fin (1/2), Fin 4)] /\
    corresponding ex114_store ex114 ["length_scale"] x ex99_store ex99 ["length_scale0"; "length_scale1"] x2 (feature_count ex99_train) 2 2.
Proof.
  destruct C99_sat as (MO & BO & PB & _ & _ & LF & EO & NI & TR & BK & WP & _).
  assert (OT : forall x, (x < 2)%nat -> others_of 3 2 (ex114_c x) (ex114_q x)).
  { intros x Hx. destruct x as [|[|x]]; [| |lia]; (split; [intros j Hj; destruct j as [|[|j]]; [| |lia]; cbn; lia|
      intros i j Hi Hj; destruct i as [|[|i]]; [| |lia]; (destruct j as [|[|j]]; [| |lia]); cbn; lia]). }
  split.
  { constructor.
    - split; [split; [constructor; reflexivity|split; [exact I|reflexivity]]|]. split; [discriminate|]. split.
      + intros n Hn. cbn in Hn. repeat destruct Hn as [<-|Hn]; cbn; try lia; destruct Hn.
      + cbn. repeat (constructor; [cbn; intuition discriminate|]). constructor.
    - intros n Hn Hf. cbn in Hn. repeat destruct Hn as [<-|Hn]; cbn in *; try discriminate; try destruct Hn.
      split; [discriminate|]. split; [discriminate|]. intros C; inversion C; lra.
    - intros n Hn Hf. cbn in Hn. repeat destruct Hn as [<-|Hn]; cbn in *; try discriminate; try destruct Hn. exists (1/2). split; [reflexivity|lra].
    - exact I.
    - reflexivity.
    - right. intros [H|[]]. discriminate.
    - split; [reflexivity|]. split.
      + eexists. split; [reflexivity|]. split; [reflexivity|]. split; [apply Nat.lt_0_succ|]. split; [intros f _; cbn; lra|reflexivity].
      + split; [exact I|]. cbn. lia.
    - intros x Hx. left. intros i Hi. cbn. lra.
    - exact OT. }
  split; [constructor; auto|]. split; [exact BK|].
  intros x BX. inversion BX as [|l bd x' bs' B BX' E1 E2]. inversion BX'. subst. exists [l; l].
  split; [repeat constructor; apply B|]. split; [reflexivity|]. split; [reflexivity|]. split; [reflexivity|]. split.
  - intros f Hf. change (feature_count ex99_train) with 2%nat in Hf. exists l. split.
    + eexists. split; [reflexivity|]. reflexivity.
    + destruct f as [|[|f]]; [| |lia]; (eexists; split; [reflexivity|]; reflexivity).
  - intros y i _ _. exists (1/100). split; reflexivity.
Qed.
