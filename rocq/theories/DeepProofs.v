(** Proofs for C71-C78. *)
From Coq Require Import Lia Lra.
From Verif Require Import Base BaseFacts NdModel NdFacts RSum LinAlgModel LinAlgSpec LinAlgFacts GPModel NoiseModel MuyGPSModel GPSpec
  TensorModel TensorSpec FlowModel FlowSpec FlowProofs FlowLemmas MultiModel MultiSpec MultiProofs MuyGPSProofs LossModel BackendModel BackendProofs NeighborsModel DeepModel DeepSpec.
Local Open Scope R_scope.

(** The posterior of the two-axis data from indices, torch tensors, any targets tensor. *)
Lemma torch_posterior ls g F kern k ix nn test train targets T N M t w q c r :
  exact_solver ls -> pointwise_kernel F kern k -> shape test = [M; F] -> shape train = [N; F] ->
  shape targets = [N; r] -> take targets nn = Ok T -> shape (gp_Kout g) = [] ->
  shape ix = [t] -> (forall x, (x < t)%nat -> at_ ix [x] = Z.of_nat (c x) /\ (c x < M)%nat) ->
  index_matrix nn t w N q -> r <> w -> noise_fits (gp_noise g) t w ->
  (forall x, (x < t)%nat -> nonsingular w (nbr_matrix k (gp_noise g) train q x)) ->
  exists cw pw Kc Kin p v, to_crosswise_tensor test train ix nn = Ok cw /\ to_pairwise_tensor train nn = Ok pw /\
    kern cw = Ok Kc /\ kern pw = Ok Kin /\
    gp_posterior_mean ls g Kin Kc T None = Ok p /\ gp_posterior_variance ls g Kin Kc = Ok v /\
    shape p = [t; r] /\ shape v = [t] /\
    (forall x s, (x < t)%nat -> (s < r)%nat ->
      kriging w (nbr_matrix k (gp_noise g) train q x) (fun j => kcov k test train (c x) (q x j))
        (fun j => at_ targets [q x j; s]) (at_ p [x; s])) /\
    (forall x, (x < t)%nat -> exists wv,
      solves w (nbr_matrix k (gp_noise g) train q x) wv (fun j => kcov k test train (c x) (q x j)) /\
      at_ v [x] = gp_var_scale g * (at_ (gp_Kout g) [] - dot w wv (fun j => kcov k test train (c x) (q x j)))).
Proof.
  intros Hls Hk St Sx HT ET HO Hix Hc Hnn Hr Hf Hns.
  assert (Hd : dataset test M) by (right; eauto). assert (Hd' : dataset train N) by (right; eauto).
  assert (Hnd : ndim test = ndim train) by (unfold ndim; rewrite St, Sx; reflexivity).
  assert (HF : feature_count test = F) by (unfold feature_count; rewrite St; reflexivity).
  assert (HF' : feature_count train = F) by (unfold feature_count; rewrite Sx; reflexivity).
  destruct (from_indices_kriging ls Hls g F kern k ix nn test train targets N M t w q c r) as (p & Ep & Sp & Hp); auto.
  destruct (from_indices_variance ls g F kern k ix nn test train targets N M t w q c r) as (v & Ev & Sv & Hv); auto.
  unfold posterior_mean_from_indices in Ep. unfold posterior_variance_from_indices in Ev.
  destruct (crosswise_tensor test train ix nn) as [cw|] eqn:Ecw; cbn [bind] in *; [|discriminate].
  destruct (pairwise_tensor train nn) as [pw|] eqn:Epw; cbn [bind] in *; [|discriminate].
  rewrite ET in Ep, Ev. cbn [bind] in Ep, Ev.
  destruct (kern pw) as [Kin|] eqn:EK; cbn [bind] in *; [|discriminate].
  destruct (kern cw) as [Kc|] eqn:EKc; cbn [bind] in *; [|discriminate].
  exists cw, pw, Kc, Kin, p, v.
  rewrite to_crosswise_eq by (unfold ndim; rewrite ?St, ?Hix; reflexivity).
  rewrite to_pairwise_eq by (unfold ndim; rewrite ?Sx, ?(proj1 Hnn); cbn; auto).
  split; [exact Ecw|]. split; [exact Epw|]. split; [exact EKc|]. split; [exact EK|]. split; [exact Ep|]. split; [exact Ev|].
  split; [exact Sp|]. split; [exact Sv|]. split; [exact Hp|exact Hv].
Qed.

Lemma layer1_posterior ls y F k x responses N b w q c r :
  exact_solver ls -> pointwise_kernel F (l1_kernel y (l1_length_scale y)) k -> shape x = [N; F] ->
  shape responses = [N; r] -> take responses (l1_nn_indices y) = Ok (l1_nn_targets y) -> shape (gp_Kout (l1_gp y)) = [] ->
  shape (l1_indices y) = [b] -> (forall a, (a < b)%nat -> at_ (l1_indices y) [a] = Z.of_nat (c a) /\ (c a < N)%nat) ->
  index_matrix (l1_nn_indices y) b w N q -> r <> w -> noise_fits (gp_noise (l1_gp y)) b w ->
  (forall a, (a < b)%nat -> nonsingular w (nbr_matrix k (gp_noise (l1_gp y)) x q a)) ->
  exists p v, layer1_forward ls y x = Ok (p, v) /\ shape p = [b; r] /\ shape v = [b] /\
    (forall a s, (a < b)%nat -> (s < r)%nat ->
      kriging w (nbr_matrix k (gp_noise (l1_gp y)) x q a) (fun j => kcov k x x (c a) (q a j))
        (fun j => at_ responses [q a j; s]) (at_ p [a; s])) /\
    (forall a, (a < b)%nat -> exists wv,
      solves w (nbr_matrix k (gp_noise (l1_gp y)) x q a) wv (fun j => kcov k x x (c a) (q a j)) /\
      at_ v [a] = gp_scale (l1_gp y) * (at_ (gp_Kout (l1_gp y)) [] - dot w wv (fun j => kcov k x x (c a) (q a j)))).
Proof.
  intros Hls Hk Sx HT ET HO Hix Hc Hnn Hr Hf Hns.
  destruct (torch_posterior ls (make (l1_gp y)) F (l1_kernel y (l1_length_scale y)) k (l1_indices y) (l1_nn_indices y) x x responses (l1_nn_targets y) N N b w q c r)
    as (cw & pw & Kc & Kin & p & v & Ecw & Epw & EKc & EK & Ep & Ev & Sp & Sv & Hp & Hv); auto.
  exists p, v. unfold layer1_forward. rewrite Ecw; cbn [bind]. rewrite Epw; cbn [bind]. rewrite EKc; cbn [bind]. rewrite EK; cbn [bind].
  rewrite Ep; cbn [bind]. rewrite Ev; cbn [bind]. auto.
Qed.

(** Many-response models. *)
Lemma torch_multi ls ms F k ix nn test train targets T N M t w q c r :
  exact_solver ls -> shape test = [M; F] -> shape train = [N; F] ->
  shape targets = [N; r] -> take targets nn = Ok T -> (List.length ms <= r)%nat ->
  (forall i m, nth_error ms i = Some m -> pointwise_kernel F (mm_kernel m) (k i) /\ noise_fits (gp_noise (mm_gp m)) t w /\
     shape (gp_Kout (mm_gp m)) = [] /\
     (forall x, (x < t)%nat -> nonsingular w (nbr_matrix (k i) (gp_noise (mm_gp m)) train q x))) ->
  shape ix = [t] -> (forall x, (x < t)%nat -> at_ ix [x] = Z.of_nat (c x) /\ (c x < M)%nat) ->
  index_matrix nn t w N q -> w <> 1%nat ->
  exists cw pw p v, to_crosswise_tensor test train ix nn = Ok cw /\ to_pairwise_tensor train nn = Ok pw /\
    mm_posterior_mean ls ms pw cw T = Ok p /\ mm_posterior_variance ls ms pw cw = Ok v /\ shape p = [t; r] /\ shape v = [t; List.length ms] /\
    (forall i m x, nth_error ms i = Some m -> (x < t)%nat ->
      kriging w (nbr_matrix (k i) (gp_noise (mm_gp m)) train q x) (fun j => kcov (k i) test train (c x) (q x j))
        (fun j => at_ targets [q x j; i]) (at_ p [x; i])) /\
    (forall i m x, nth_error ms i = Some m -> (x < t)%nat -> exists wv,
      solves w (nbr_matrix (k i) (gp_noise (mm_gp m)) train q x) wv (fun j => kcov (k i) test train (c x) (q x j)) /\
      at_ v [x; i] = gp_scale (mm_gp m) * (gp_var_scale (mm_gp m) *
        (at_ (gp_Kout (mm_gp m)) [] - dot w wv (fun j => kcov (k i) test train (c x) (q x j))))).
Proof.
  intros Hls St Sx HT ET Hlen Hms Hix Hc Hnn Hw.
  assert (Hd : dataset test M) by (right; eauto). assert (Hd' : dataset train N) by (right; eauto).
  assert (Hnd : ndim test = ndim train) by (unfold ndim; rewrite St, Sx; reflexivity).
  assert (HF : feature_count test = F) by (unfold feature_count; rewrite St; reflexivity).
  assert (HF' : feature_count train = F) by (unfold feature_count; rewrite Sx; reflexivity).
  assert (HK0 : pointwise_kernel F (fun d => Ok (mkNd (removelast (shape d)) (fun _ => 0))) (fun _ => 0)).
  { split; [reflexivity|]. intros d sh Hs. eexists. split; [reflexivity|]. cbn [shape at_]. rewrite Hs, removelast_last. auto. }
  destruct (crosswise_kernel F _ _ test train ix nn M N t w c q HK0) as (cw & K0 & Ecw & _); auto.
  destruct (pairwise_kernel F _ _ train nn N t w q HK0 Hd' HF' Hnn) as (pw & K1 & Epw & _).
  destruct (target_tensor targets nn N t w q r HT Hnn) as (T' & ET' & ST & HTv).
  assert (T' = T) by congruence; subst T'.
  assert (Hm : forall i m, nth_error ms i = Some m -> exists Kin Kc, mm_kernel m pw = Ok Kin /\ mm_kernel m cw = Ok Kc /\
     shape Kin = [t; w; w] /\ shape Kc = [t; w] /\
     (forall x i' j, (x < t)%nat -> (i' < w)%nat -> (j < w)%nat -> at_ Kin [x; i'; j] = kcov (k i) train train (q x i') (q x j)) /\
     (forall x j, (x < t)%nat -> (j < w)%nat -> at_ Kc [x; j] = kcov (k i) test train (c x) (q x j))).
  { intros i m Hi. destruct (Hms i m Hi) as (Hk & Hf & HO & Hns).
    destruct (crosswise_kernel F _ _ test train ix nn M N t w c q Hk) as (cw' & Kc & Ecw' & EKc & SKc & HKc); auto.
    destruct (pairwise_kernel F _ _ train nn N t w q Hk Hd' HF' Hnn) as (pw' & Kin & Epw' & EK & SK & HK).
    rewrite Ecw in Ecw'; injection Ecw' as <-. rewrite Epw in Epw'; injection Epw' as <-. exists Kin, Kc. auto 10. }
  destruct (mm_mean_kriging ls ms pw cw T t w r Hls ST Hw Hlen) as (p & Ep & Sp & Hp).
  { intros i m Hi. destruct (Hms i m Hi) as (Hk & Hf & HO & Hns). split; [auto|].
    destruct (Hm i m Hi) as (Kin & Kc & E1 & E2 & S1 & S2 & H1 & H2). exists Kin, Kc.
    split; [auto|]. split; [auto|]. split; [auto|]. split; [auto|]. intros x Hx.
    apply (nonsingular_ext w (nbr_matrix (k i) (gp_noise (mm_gp m)) train q x)); [|auto].
    intros i' j Hi' Hj. unfold noisy, nbr_matrix, plus_diag, rowmat. rewrite H1 by auto. reflexivity. }
  assert (Hvar : forall i m, nth_error ms i = Some m -> exists v, univariate_variance ls (mm_gp m) m pw cw = Ok v /\ shape v = [t] /\
    forall x, (x < t)%nat -> exists wv,
      solves w (nbr_matrix (k i) (gp_noise (mm_gp m)) train q x) wv (fun j => kcov (k i) test train (c x) (q x j)) /\
      at_ v [x] = gp_var_scale (mm_gp m) *
        (at_ (gp_Kout (mm_gp m)) [] - dot w wv (fun j => kcov (k i) test train (c x) (q x j)))).
  { intros i m Hi. destruct (Hms i m Hi) as (Hk & Hf & HO & Hns).
    destruct (from_indices_variance ls (mm_gp m) F (mm_kernel m) (k i) ix nn test train targets N M t w q c r) as (v & Ev & Sv & Hv); auto.
    exists v. split; [|auto]. unfold posterior_variance_from_indices in Ev. rewrite Ecw in Ev; cbn [bind] in Ev.
    rewrite Epw in Ev; cbn [bind] in Ev. rewrite ET in Ev; cbn [bind] in Ev. exact Ev. }
  assert (Scw : exists sh, shape cw = t :: sh).
  { destruct (crosswise_kernel F _ _ test train ix nn M N t w c q HK0) as (cw' & K0' & Ecw' & EK0' & SK0' & _); auto.
    rewrite Ecw in Ecw'; injection Ecw' as <-. injection EK0' as <-. cbn [shape] in SK0'.
    destruct (shape cw) as [|a [|b l]]; try discriminate SK0'. cbn in SK0'. injection SK0' as -> _. eauto. }
  destruct Scw as [sh Scw].
  destruct (mm_var_total ls ms pw cw t sh Scw) as (v & Ev).
  { intros i m Hi. destruct (Hvar i m Hi) as (v & Ev & Sv & _). exists v. split; [exact Ev|]. rewrite Sv. apply nprod1. }
  destruct (mm_var_ok ls ms pw cw t sh v Scw Ev) as (Sv & Hv).
  exists cw, pw, p, v.
  rewrite to_crosswise_eq by (unfold ndim; rewrite ?St, ?Hix; reflexivity).
  rewrite to_pairwise_eq by (unfold ndim; rewrite ?Sx, ?(proj1 Hnn); cbn; auto).
  split; [exact Ecw|]. split; [exact Epw|]. split; [exact Ep|]. split; [exact Ev|]. split; [exact Sp|]. split; [exact Sv|].
  split.
  2: { intros i m x Hi Hx. destruct (Hvar i m Hi) as (vi & Evi & Svi & Hvi). destruct (Hv i m Hi) as (v' & Ev' & _ & Hv').
    assert (v' = vi) by congruence; subst v'. destruct (Hvi x Hx) as (wv & Hs & E). exists wv. split; [exact Hs|].
    rewrite Hv' by auto. unfold entry. rewrite Svi. rewrite <- E. f_equal. f_equal. cbn. rewrite Nat.div_1_r. reflexivity. }
  intros i m x Hi Hx. destruct (Hm i m Hi) as (Kin & Kc & E1 & E2 & S1 & S2 & H1 & H2).
  destruct (Hp i m Kin Kc x Hi E1 E2 Hx) as (wv & Hs & Epv).
  exists wv. split.
  - intros i' Hi'. specialize (Hs i' Hi'). unfold rowvec in Hs. cbn beta in Hs. rewrite H2 in Hs by auto. rewrite <- Hs.
    apply rsum_ext; intros j Hj. unfold noisy, nbr_matrix, plus_diag, rowmat. rewrite H1 by auto. reflexivity.
  - rewrite Epv. apply rsum_ext; intros j Hj. rewrite HTv by auto. reflexivity.
Qed.

Lemma layerM_posterior ls y F k x responses N b w q c r :
  exact_solver ls -> shape x = [N; F] -> shape responses = [N; r] -> take responses (lM_nn_indices y) = Ok (lM_nn_targets y) ->
  (List.length (lM_models y) <= r)%nat ->
  (forall i m, nth_error (lM_models y) i = Some m -> pointwise_kernel F (mm_kernel m) (k i) /\ noise_fits (gp_noise (mm_gp m)) b w /\
     shape (gp_Kout (mm_gp m)) = [] /\
     (forall a, (a < b)%nat -> nonsingular w (nbr_matrix (k i) (gp_noise (mm_gp m)) x q a))) ->
  shape (lM_indices y) = [b] -> (forall a, (a < b)%nat -> at_ (lM_indices y) [a] = Z.of_nat (c a) /\ (c a < N)%nat) ->
  index_matrix (lM_nn_indices y) b w N q -> w <> 1%nat ->
  exists p v, layerM_forward ls y x = Ok (p, v) /\ shape p = [b; r] /\ shape v = [b; List.length (lM_models y)] /\
    (forall i m a, nth_error (lM_models y) i = Some m -> (a < b)%nat ->
      kriging w (nbr_matrix (k i) (gp_noise (mm_gp m)) x q a) (fun j => kcov (k i) x x (c a) (q a j))
        (fun j => at_ responses [q a j; i]) (at_ p [a; i])) /\
    (forall i m a, nth_error (lM_models y) i = Some m -> (a < b)%nat -> exists wv,
      solves w (nbr_matrix (k i) (gp_noise (mm_gp m)) x q a) wv (fun j => kcov (k i) x x (c a) (q a j)) /\
      at_ v [a; i] = gp_scale (mm_gp m) * (gp_var_scale (mm_gp m) *
        (at_ (gp_Kout (mm_gp m)) [] - dot w wv (fun j => kcov (k i) x x (c a) (q a j))))).
Proof.
  intros Hls Sx HT ET Hlen Hms Hix Hc Hnn Hw.
  destruct (torch_multi ls (lM_models y) F k (lM_indices y) (lM_nn_indices y) x x responses (lM_nn_targets y) N N b w q c r)
    as (cw & pw & p & v & Ecw & Epw & Ep & Ev & Sp & Sv & Hp & Hv); auto.
  exists p, v. unfold layerM_forward. rewrite Ecw; cbn [bind]. rewrite Epw; cbn [bind]. rewrite Ev; cbn [bind]. rewrite Ep; cbn [bind]. auto.
Qed.

Lemma arange_rows t : forall x, (x < t)%nat -> at_ (arange t) [x] = Z.of_nat x /\ (x < t)%nat.
Proof. intros x Hx. split; [reflexivity|auto]. Qed.

(** ** Prediction *)
Section Predict.
Variable P : Type.
Variable emb : bool -> nat -> P -> nd R -> nd R.
Variable L : Type.
Variable query : L -> nd R -> nat -> result (nd Z).
Variable ls : lsolver.
Hypothesis Hls : exact_solver ls.
Notation predict := (predict_model P emb L query ls).

Lemma predict_single m wt y nbrs n test train responses nn F k N M w q r :
  dm_embedding P m = Some wt -> dm_layer P m = Some (Single y) ->
  pointwise_kernel F (l1_kernel y (l1_length_scale y)) k ->
  shape (emb (dm_training P m) (dm_draws P m) wt train) = [N; F] ->
  shape (emb (dm_training P m) (S (dm_draws P m)) wt test) = [M; F] ->
  query nbrs (emb (dm_training P m) (S (dm_draws P m)) wt test) n = Ok nn ->
  shape responses = [N; r] -> shape (gp_Kout (l1_gp y)) = [] -> index_matrix nn M w N q -> r <> w -> noise_fits (gp_noise (l1_gp y)) M w ->
  (forall x, (x < M)%nat -> nonsingular w (nbr_matrix k (gp_noise (l1_gp y)) (emb (dm_training P m) (dm_draws P m) wt train) q x)) ->
  exists p v m', predict m test train responses nbrs n = Ok (p, v, m') /\ shape p = [M; r] /\ shape v = [M] /\
    (forall x s, (x < M)%nat -> (s < r)%nat ->
      kriging w (nbr_matrix k (gp_noise (l1_gp y)) (emb (dm_training P m) (dm_draws P m) wt train) q x)
        (fun j => kcov k (emb (dm_training P m) (S (dm_draws P m)) wt test) (emb (dm_training P m) (dm_draws P m) wt train) x (q x j))
        (fun j => at_ responses [q x j; s]) (at_ p [x; s])) /\
    (forall x, (x < M)%nat -> exists wv,
      solves w (nbr_matrix k (gp_noise (l1_gp y)) (emb (dm_training P m) (dm_draws P m) wt train) q x) wv
        (fun j => kcov k (emb (dm_training P m) (S (dm_draws P m)) wt test) (emb (dm_training P m) (dm_draws P m) wt train) x (q x j)) /\
      at_ v [x] = gp_var_scale (l1_gp y) * (at_ (gp_Kout (l1_gp y)) [] -
        dot w wv (fun j => kcov k (emb (dm_training P m) (S (dm_draws P m)) wt test) (emb (dm_training P m) (dm_draws P m) wt train) x (q x j)))).
Proof.
  intros Hw Hy Hk Sx St Eq HT HO Hnn Hr Hf Hns.
  destruct (target_tensor responses nn N M w q r HT Hnn) as (T & ET & ST & HTv).
  destruct (torch_posterior ls (l1_gp y) F (l1_kernel y (l1_length_scale y)) k (arange M) nn _ _ responses T N M M w q (fun x => x) r
    Hls Hk St Sx HT ET HO eq_refl (arange_rows M) Hnn Hr Hf Hns)
    as (cw & pw & Kc & Kin & p & v & Ecw & Epw & EKc & EK & Ep & Ev & Sp & Sv & Hp & Hv).
  eexists p, v, _. split.
  { unfold predict_model, embed. rewrite Hy. cbn beta iota. rewrite !Hw.
    cbn [bind dm_embedding dm_training dm_draws dm_layer]. rewrite ?Hw. cbn [bind].
    unfold row_count. rewrite St. cbn [bind]. rewrite Eq. cbn [bind]. unfold to_take. rewrite ET. cbn [bind].
    rewrite Ecw; cbn [bind]. rewrite Epw; cbn [bind]. rewrite EKc; cbn [bind]. rewrite EK; cbn [bind].
    rewrite Ep; cbn [bind]. rewrite Ev; cbn [bind]. reflexivity. }
  auto.
Qed.

Lemma predict_multi m wt y nbrs n test train responses nn F k N M w q r :
  dm_embedding P m = Some wt -> dm_layer P m = Some (Multi y) ->
  shape (emb (dm_training P m) (dm_draws P m) wt train) = [N; F] ->
  shape (emb (dm_training P m) (S (dm_draws P m)) wt test) = [M; F] ->
  query nbrs (emb (dm_training P m) (S (dm_draws P m)) wt test) n = Ok nn ->
  shape responses = [N; r] -> (List.length (lM_models y) <= r)%nat ->
  (forall i g, nth_error (lM_models y) i = Some g -> pointwise_kernel F (mm_kernel g) (k i) /\ noise_fits (gp_noise (mm_gp g)) M w /\
     shape (gp_Kout (mm_gp g)) = [] /\
     (forall x, (x < M)%nat -> nonsingular w (nbr_matrix (k i) (gp_noise (mm_gp g)) (emb (dm_training P m) (dm_draws P m) wt train) q x))) ->
  index_matrix nn M w N q -> w <> 1%nat ->
  exists p v m', predict m test train responses nbrs n = Ok (p, v, m') /\ shape p = [M; r] /\ shape v = [M; List.length (lM_models y)] /\
    (forall i g x, nth_error (lM_models y) i = Some g -> (x < M)%nat ->
      kriging w (nbr_matrix (k i) (gp_noise (mm_gp g)) (emb (dm_training P m) (dm_draws P m) wt train) q x)
        (fun j => kcov (k i) (emb (dm_training P m) (S (dm_draws P m)) wt test) (emb (dm_training P m) (dm_draws P m) wt train) x (q x j))
        (fun j => at_ responses [q x j; i]) (at_ p [x; i])) /\
    (forall i g x, nth_error (lM_models y) i = Some g -> (x < M)%nat -> exists wv,
      solves w (nbr_matrix (k i) (gp_noise (mm_gp g)) (emb (dm_training P m) (dm_draws P m) wt train) q x) wv
        (fun j => kcov (k i) (emb (dm_training P m) (S (dm_draws P m)) wt test) (emb (dm_training P m) (dm_draws P m) wt train) x (q x j)) /\
      at_ v [x; i] = gp_scale (mm_gp g) * (gp_var_scale (mm_gp g) * (at_ (gp_Kout (mm_gp g)) [] -
        dot w wv (fun j => kcov (k i) (emb (dm_training P m) (S (dm_draws P m)) wt test) (emb (dm_training P m) (dm_draws P m) wt train) x (q x j))))).
Proof.
  intros Hw Hy Sx St Eq HT Hlen Hms Hnn Hw1.
  destruct (target_tensor responses nn N M w q r HT Hnn) as (T & ET & ST & HTv).
  destruct (torch_multi ls (lM_models y) F k (arange M) nn _ _ responses T N M M w q (fun x => x) r
    Hls St Sx HT ET Hlen Hms eq_refl (arange_rows M) Hnn Hw1) as (cw & pw & p & v & Ecw & Epw & Ep & Ev & Sp & Sv & Hp & Hv).
  eexists p, v, _. split.
  { unfold predict_model, embed. rewrite Hy. cbn beta iota. rewrite !Hw.
    cbn [bind dm_embedding dm_training dm_draws dm_layer]. rewrite ?Hw. cbn [bind].
    unfold row_count. rewrite St. cbn [bind]. rewrite Eq. cbn [bind]. unfold to_take. rewrite ET. cbn [bind].
    rewrite Ecw; cbn [bind]. rewrite Epw; cbn [bind].
    rewrite Ep; cbn [bind]. rewrite Ev; cbn [bind]. reflexivity. }
  auto.
Qed.

Lemma predict_missing m test train responses nbrs n :
  (dm_layer P m = None \/ dm_embedding P m = None) -> predict m test train responses nbrs n = Err NotImplementedError.
Proof.
  unfold predict_model. intros [H|H]; rewrite H; [reflexivity|]. destruct (dm_layer P m); reflexivity.
Qed.
End Predict.

(** ** Training *)
Section Train.
Variable P : Type.
Variable emb : bool -> nat -> P -> nd R -> nd R.
Variable L : Type.
Variable build : nd R -> nat -> result L.
Variable lookup_count : L -> nat.
Variable query : L -> nd R -> nat -> result (nd Z).
Variables bce ce : nd R -> nd R -> result R.
Variable ls : lsolver.
Notation dm := (deep P).
Notation mkD := (mkDeep P).

Lemma embed_inv (m m' : dm) x e : embed P emb m x = Ok (e, m') -> exists w, dm_embedding P m = Some w /\
  e = emb (dm_training P m) (dm_draws P m) w x /\ dm_embedding P m' = dm_embedding P m /\ dm_layer P m' = dm_layer P m /\
  dm_training P m' = dm_training P m /\ dm_draws P m' = S (dm_draws P m).
Proof.
  unfold embed. destruct (dm_embedding P m) as [w|] eqn:E; [|discriminate]. intros H; injection H as <- <-. exists w. auto 10.
Qed.

(** What a refresh does. *)
Lemma refresh_inv (m m' : dm) train responses bf n nbrs : refresh P emb L build query m train responses bf n = Ok (nbrs, m') ->
  exists w nn T, dm_embedding P m = Some w /\ dm_embedding P m' = Some w /\ dm_layer P m' = dm_layer P m /\ dm_training P m' = dm_training P m /\
    build (emb (dm_training P m) (dm_draws P m) w train) n = Ok nbrs /\
    query nbrs (emb (dm_training P m) (S (dm_draws P m)) w bf) n = Ok nn /\ take responses nn = Ok T /\
    dm_nn_indices P m' = nn /\ dm_nn_targets P m' = T.
Proof.
  unfold refresh. destruct (embed P emb m train) as [[e m1]|] eqn:E1; cbn [bind]; [|discriminate].
  destruct (embed_inv _ _ _ _ E1) as (w & Hw & -> & Hw1 & Hl1 & Ht1 & Hd1).
  destruct (build _ n) as [nb|] eqn:EB; cbn [bind]; [|discriminate].
  destruct (embed P emb m1 bf) as [[be m2]|] eqn:E2; cbn [bind]; [|discriminate].
  destruct (embed_inv _ _ _ _ E2) as (w' & Hw' & -> & Hw2 & Hl2 & Ht2 & Hd2).
  rewrite Hw1, Hw in Hw'. injection Hw' as <-. rewrite Ht1, Hd1.
  destruct (query nb _ n) as [nn|] eqn:EQ; cbn [bind]; [|discriminate].
  unfold to_take. destruct (take responses nn) as [T|] eqn:ET; cbn [bind]; [|discriminate].
  intros H; injection H as <- <-. exists w, nn, T. cbn [set_neighbors dm_embedding dm_layer dm_training dm_nn_indices dm_nn_targets].
  rewrite Hw2, Hw1, Hl2, Hl1, Ht2, Ht1. auto 10.
Qed.

Lemma forward_inv (m m' : dm) x p v : forward P emb ls m x = Ok (p, v, m') ->
  dm_embedding P m' = dm_embedding P m /\ dm_layer P m' = dm_layer P m /\ dm_training P m' = dm_training P m /\
  (exists w, dm_embedding P m = Some w) /\ exists y, dm_layer P m = Some y.
Proof.
  unfold forward. destruct (embed P emb m x) as [[e m1]|] eqn:E1; cbn [bind]; [|discriminate].
  destruct (embed_inv _ _ _ _ E1) as (w & Hw & -> & Hw1 & Hl1 & Ht1 & Hd1).
  destruct (dm_layer P m1) as [y|] eqn:EY; [|discriminate].
  destruct (layer_forward ls y _) as [[p' v']|]; cbn [bind]; [|discriminate].
  intros H; injection H as <- <- <-. rewrite <- Hl1. eauto 10.
Qed.

Variable opt : nat -> P -> list R -> P * list R.
Notation step := (train_step P emb L build query bce ce opt ls).
Notation loop := (train_loop P emb L build query bce ce opt ls).
Notation run := (train_deep_kernel P emb L build lookup_count query bce ce opt ls).

(** The layers that differ at most in the registered parameters. *)
Definition same_but_parameters (y y' : gp_layer) : Prop := exists v, y' = layer_set_parameters y v.

Lemma set_set y v v' : exists u, layer_set_parameters (layer_set_parameters y v) v' = layer_set_parameters y u.
Proof.
  destruct y as [y|y].
  - destruct v as [|a [|a' v]]; cbn; [exists v'; reflexivity| |exists v'; reflexivity].
    destruct v' as [|b [|b' v']]; cbn; [exists [a]; reflexivity|exists [b]; reflexivity|exists [a]; reflexivity].
  - exists []. destruct v as [|a [|a' v]], v' as [|b [|b' v']]; reflexivity.
Qed.
Lemma set_none y : layer_set_parameters y [] = y.
Proof. destruct y; reflexivity. Qed.

Lemma step_inv k train responses bf br n freq i (m m' : dm) :
  step k train responses bf br n freq i m = Ok m' ->
  (exists y y', dm_layer P m = Some y /\ dm_layer P m' = Some y' /\ same_but_parameters y y') /\
  (exists w, dm_embedding P m' = Some w) /\ dm_training P m' = negb (update_due i freq).
Proof.
  unfold train_step. destruct (forward P emb ls (set_mode P true m) train) as [[[p v] m1]|] eqn:EF; cbn [bind]; [|discriminate].
  destruct (forward_inv _ _ _ _ _ EF) as (Hw & Hl & Ht & (w & Ew) & y & Hy). cbn [set_mode dm_embedding dm_layer dm_training] in *.
  destruct (deep_loss_value bce ce ls k p br v) as [l|]; cbn [bind]; [|discriminate].
  assert (HA : exists w' v', apply_step P opt i m1 = mkD (Some w') (Some (layer_set_parameters y v')) (dm_nn_indices P m1) (dm_nn_targets P m1) true (dm_draws P m1)).
  { unfold apply_step. rewrite Hw, Ew, Hl, Hy. destruct (opt i w (model_parameters P m1)) as [w' v'].
    exists w', v'. rewrite Ht. reflexivity. }
  destruct HA as (w' & v' & HA). rewrite HA.
  destruct (update_due i freq) eqn:ED.
  - destruct (refresh _ _ _ _ _ _ _ _ _ _) as [[nb m2]|] eqn:ER; cbn [bind]; [|discriminate].
    intros H; injection H as <-. destruct (refresh_inv _ _ _ _ _ _ _ ER) as (w2 & nn & T & E1 & E2 & E3 & E4 & _).
    cbn [set_mode dm_embedding dm_layer dm_training] in *. split; [|split; [eauto|exact E4]].
    exists y, (layer_set_parameters y v'). split; [auto|]. split; [auto|]. exists v'; auto.
  - intros H; injection H as <-. cbn [dm_embedding dm_layer dm_training negb]. split; [|split; [eauto|reflexivity]].
    exists y, (layer_set_parameters y v'). split; [auto|]. split; [auto|]. exists v'; auto.
Qed.

Lemma loop_layer k train responses bf br n freq todo : forall i (m m' : dm) y,
  dm_layer P m = Some y -> loop k train responses bf br n freq i todo m = Ok m' ->
  exists y', dm_layer P m' = Some y' /\ same_but_parameters y y'.
Proof.
  induction todo as [|todo IH]; intros i m m' y Hy E.
  - injection E as <-. exists y. split; [auto|]. exists []. rewrite set_none. reflexivity.
  - cbn [train_loop] in E. destruct (step k train responses bf br n freq i m) as [m1|] eqn:E1; cbn [bind] in E; [|discriminate].
    destruct (step_inv _ _ _ _ _ _ _ _ _ _ E1) as ((y0 & y1 & H0 & H1 & v1 & ->) & _).
    rewrite Hy in H0; injection H0 as <-. destruct (IH _ _ _ _ H1 E) as (y2 & H2 & v2 & ->).
    destruct (set_set y v1 v2) as (u & Eu). rewrite Eu in H2. exists (layer_set_parameters y u). split; [auto|]. exists u; auto.
Qed.

Lemma loop_mode k train responses bf br n freq todo : forall i (m m' : dm),
  loop k train responses bf br n freq i todo m = Ok m' ->
  dm_training P m' = (match todo with O => dm_training P m | S t => negb (update_due (i + t) freq) end).
Proof.
  induction todo as [|todo IH]; intros i m m' E; [injection E as <-; reflexivity|].
  cbn [train_loop] in E. destruct (step k train responses bf br n freq i m) as [m1|] eqn:E1; cbn [bind] in E; [|discriminate].
  destruct (step_inv _ _ _ _ _ _ _ _ _ _ E1) as (_ & _ & Hm). rewrite (IH _ _ _ E).
  destruct todo as [|t]; [rewrite Nat.add_0_r; exact Hm|]. f_equal. f_equal. lia.
Qed.

Lemma run_inv (m m' : dm) train responses ix nbrs nbrs' iters lf freq :
  run m train responses ix nbrs iters lf freq = Ok (nbrs', m') ->
  exists k bf br m1, parse_loss lf = Ok k /\ take train ix = Ok bf /\ take responses ix = Ok br /\
    loop k train responses bf br (lookup_count nbrs) freq 0 iters m = Ok m1 /\
    refresh P emb L build query m1 train responses bf (lookup_count nbrs) = Ok (nbrs', m').
Proof.
  unfold train_deep_kernel. destruct (dm_embedding P m); [|discriminate]. unfold to_take.
  destruct (take train ix) as [bf|] eqn:E1; cbn [bind]; [|discriminate].
  destruct (take responses ix) as [br|] eqn:E2; cbn [bind]; [|discriminate].
  destruct (parse_loss lf) as [k|] eqn:E3; cbn [bind]; [|discriminate].
  destruct (loop k train responses bf br (lookup_count nbrs) freq 0 iters m) as [m1|] eqn:E4; cbn [bind]; [|discriminate].
  intros E. exists k, bf, br, m1. auto.
Qed.

(** The returned lookup. *)
Lemma run_lookup (m m' : dm) train responses ix nbrs nbrs' iters lf freq :
  run m train responses ix nbrs iters lf freq = Ok (nbrs', m') ->
  exists w d bf, dm_embedding P m' = Some w /\ take train ix = Ok bf /\
    build (emb (dm_training P m') d w train) (lookup_count nbrs) = Ok nbrs' /\
    query nbrs' (emb (dm_training P m') (S d) w bf) (lookup_count nbrs) = Ok (dm_nn_indices P m') /\
    take responses (dm_nn_indices P m') = Ok (dm_nn_targets P m').
Proof.
  intros E. destruct (run_inv _ _ _ _ _ _ _ _ _ _ E) as (k & bf & br & m1 & _ & Eb & _ & El & Er).
  destruct (refresh_inv _ _ _ _ _ _ _ Er) as (w & nn & T & H1 & H2 & H3 & H4 & H5 & H6 & H7 & H8 & H9).
  exists w, (dm_draws P m1), bf. rewrite H4, H8, H9. auto 10.
Qed.
Lemma run_mode (m m' : dm) train responses ix nbrs nbrs' iters lf freq :
  run m train responses ix nbrs iters lf freq = Ok (nbrs', m') ->
  dm_training P m' = match iters with O => dm_training P m | S t => negb (update_due t freq) end.
Proof.
  intros E. destruct (run_inv _ _ _ _ _ _ _ _ _ _ E) as (k & bf & br & m1 & _ & Eb & _ & El & Er).
  destruct (refresh_inv _ _ _ _ _ _ _ Er) as (w & nn & T & H1 & H2 & H3 & H4 & _). rewrite H4. exact (loop_mode _ _ _ _ _ _ _ _ _ _ _ El).
Qed.
Lemma run_layer (m m' : dm) train responses ix nbrs nbrs' iters lf freq y :
  dm_layer P m = Some y -> run m train responses ix nbrs iters lf freq = Ok (nbrs', m') ->
  exists y', dm_layer P m' = Some y' /\ same_but_parameters y y'.
Proof.
  intros Hy E. destruct (run_inv _ _ _ _ _ _ _ _ _ _ E) as (k & bf & br & m1 & _ & Eb & _ & El & Er).
  destruct (refresh_inv _ _ _ _ _ _ _ Er) as (w & nn & T & H1 & H2 & H3 & H4 & _). rewrite H3. exact (loop_layer _ _ _ _ _ _ _ _ _ _ _ _ Hy El).
Qed.
Lemma run_missing (m : dm) train responses ix nbrs iters lf freq :
  dm_embedding P m = None -> run m train responses ix nbrs iters lf freq = Err NotImplementedError.
Proof. intros H. unfold train_deep_kernel. rewrite H. reflexivity. Qed.

Lemma update_inv (m m' : dm) train responses ix n nbrs :
  update_nearest_neighbors P emb L build query m train responses ix n = Ok (nbrs, m') ->
  exists w bf, dm_embedding P m = Some w /\ dm_embedding P m' = Some w /\ dm_layer P m' = dm_layer P m /\ dm_training P m' = dm_training P m /\
    take train ix = Ok bf /\
    build (emb (dm_training P m) (dm_draws P m) w train) n = Ok nbrs /\
    query nbrs (emb (dm_training P m) (S (dm_draws P m)) w bf) n = Ok (dm_nn_indices P m') /\
    take responses (dm_nn_indices P m') = Ok (dm_nn_targets P m').
Proof.
  unfold update_nearest_neighbors. destruct (dm_embedding P m) eqn:EM; [|discriminate]. unfold to_take.
  destruct (take train ix) as [bf|] eqn:E1; cbn [bind]; [|discriminate]. intros Er.
  destruct (refresh_inv _ _ _ _ _ _ _ Er) as (w & nn & T & H1 & H2 & H3 & H4 & H5 & H6 & H7 & H8 & H9).
  exists w, bf. rewrite H4, H8, H9, H3. rewrite <- EM. auto 10.
Qed.

(** A deterministic evaluation mode: the forward pass does not see the refreshed attributes. *)
Lemma forward_frame (m m' : dm) x : (forall d d' w z, emb false d w z = emb false d' w z) -> dm_training P m = false ->
  dm_training P m' = false -> dm_embedding P m' = dm_embedding P m -> dm_layer P m' = dm_layer P m ->
  rmap fst (forward P emb ls m' x) = rmap fst (forward P emb ls m x).
Proof.
  intros He Hm Hm' Hw Hl. unfold forward, embed. rewrite Hw, Hm, Hm'. destruct (dm_embedding P m) as [w|]; [|reflexivity].
  cbn [bind dm_layer]. rewrite Hl. destruct (dm_layer P m) as [y|]; [|reflexivity].
  rewrite (He (dm_draws P m') (dm_draws P m)). destruct (layer_forward ls y _) as [[p v]|]; reflexivity.
Qed.
End Train.
