(** Lemmas for C117: training. *)
From Coq Require Import Lia Lra.
From Verif Require Import Base BaseFacts NdModel NdFacts RSum HyperModel HyperSpec NamedModel NamedSpec LinAlgModel LinAlgSpec LinAlgFacts
  GPModel NoiseModel GPProofs MuyGPSModel GPSpec MuyGPSProofs GPTheorems TensorModel TensorSpec KernelModel KernelSpec
  LossModel LossSpec ChassisModel ChassisSpec NamedProofs ChassisProofs ObjectiveProofs FlowModel FlowSpec LibSpec LibProofs
  MultiModel DriverModel WorkModel WorkSpec TrainModel TrainSpec TrainProofs TrainProofs2 CoincideSpec CoincideProofs.
Local Open Scope R_scope.
Local Open Scope string_scope.

Section T.
Variable ls : lsolver.
Hypothesis EX : exact_solver ls.
Variable slogdet : nat -> mat -> R * R.
Variable eps : R.
Variables (gamma : R -> R) (kv : R -> R -> R).

Lemma score_singular s F l kw train targets ix nn N b n c q draws t :
  trainable s F train b n -> batch_ok train targets ix nn N b n c q ->
  (exists x, (x < b)%nat /\ coincident (full_noise s F) train n x (q x)) ->
  full_train_tensors F ix nn train targets = Ok t ->
  loo_score ls slogdet eps gamma kv s F l kw draws (tr_pair t) (tr_cross t) (tr_nn_targets t) (tr_targets t) = Err LinAlgError.
Proof.
  intros (B & (K & L & OK) & NF & _) (D & HT & Hb & Hn & SI & HC & NN) (x & Hx & CO) Et.
  destruct (train_tensors_ok gamma kv s F K train targets ix nn N b n c q B L OK D HT SI HC NN)
    as (t' & Kin & Kc & Et' & EK & EKc & SKi & SKc & ST1 & ST & HKv & HKc & HT1 & HTv).
  assert (t' = t) by congruence. subst t'.
  assert (GB : gp_noise (gp_bound s F) = full_noise s F) by (unfold gp_bound; rewrite B; reflexivity).
  unfold loo_score. rewrite EK. cbn [bind]. rewrite EKc. cbn [bind].
  unfold gp_posterior_mean. rewrite GB.
  destruct (perturb3 (full_noise s F) None Kin b n NF SKi) as (Kp & EP & SP & HP). rewrite EP. cbn [bind].
  assert (NC : no_coincidence [] [n]) by (split; cbn; [lia|intros; lia]).
  rewrite (posterior_mean_singular ls EX Kp Kc (tr_nn_targets t) [b] [n] [] [] [x]); auto; [discriminate|apply inb1; exact Hx|].
  intros NS. apply (coincident_singular gamma kv K (feature_count train) (reals s) [] (full_noise s F) train n q x OK eq_refl CO).
  assert (NW : nprod [n] = n) by apply Nat.mul_1_r. rewrite NW in NS.
  apply (nonsingular_ext n (Kmat Kp [n] [x])); [|exact NS]. intros i j Hi Hj. rewrite Kmat_rowmat.
  unfold nbr_matrix, plus_diag. rewrite <- HKv by assumption. unfold rowmat. rewrite HP by assumption. reflexivity.
Qed.

(** Candidates keep a fixed noise. *)
Lemma candidate_coincident s F names x0 bounds x s' F' train b n q y :
  model_ok s F -> get_opt_params s (f_attr F) = Ok (names, x0, bounds) -> ~ In "noise" names ->
  new_muygps s F names bounds (combine names (map Fin x)) = Ok (s', F') ->
  optimized_model s F (combine names (map Fin x)) s' F' -> trainable s F train b n ->
  coincident (full_noise s F) train n y q -> coincident (full_noise s' F') train n y q.
Proof.
  intros MO EO SK E (_ & HO & _) TR (i & j & Hi & Hj & Hij & Ei & Ej & EQ).
  pose proof (new_muygps_form _ _ _ _ _ _ _ E) as EF.
  assert (AT : f_attr F' = model_make s' (move_model (st_next s) (f_attr F))) by (subst F'; reflexivity).
  assert (HT : f_hetero F' = f_hetero F) by (subst F'; reflexivity).
  rewrite AT, declared_make, declared_move in HO. pose proof (Forall2_map_in _ _ _ HO) as HO'. clear HO.
  assert (NE : forall k, noise_at (full_noise s' F') None y k = noise_at (full_noise s F) None y k).
  { intros k. unfold full_noise. rewrite AT. cbn [model_make move_model m_noise].
    destruct MO as (Hb & NN & _).
    destruct (m_noise (f_attr F)) as [nm| |] eqn:EN; cbn [move_noise noise_of]; [|rewrite HT; reflexivity|reflexivity].
    assert (IN : In nm (declared (f_attr F))) by (unfold declared; rewrite EN; apply in_app_iff; right; left; reflexivity).
    destruct (HO' nm IN) as (_ & _ & _ & _ & V).
    destruct (p_fixed (st_cell s (nm_loc nm))) eqn:Hf; [unfold reals; rewrite V; reflexivity|].
    exfalso. apply SK. rewrite get_opt_params_eq in EO by (rewrite EN; discriminate).
    assert (E1 : names = map nm_name (filter (NamedSpec.free s) (declared (f_attr F)))) by (inversion EO; reflexivity).
    rewrite E1. apply in_map_iff. exists nm. split.
    - destruct Hb as (_ & Hb). rewrite EN in Hb. exact (proj2 Hb).
    - apply filter_In. split; [exact IN|]. unfold NamedSpec.free. rewrite Hf. reflexivity. }
  exists i, j. rewrite !NE. auto 8.
Qed.

Variables (s : store) (F : full) (l : loss) (kw : dict R) (draws : nat -> list nat) (train targets : nd R) (ix nn : nd Z)
  (N b n : nat) (c : nat -> nat) (q : nat -> nat -> nat) (names : list string) (x0 : list num) (bounds : list (num * num)).
Hypothesis MO : model_ok s F.
Hypothesis BO : bounds_ok s F.
Hypothesis PB : positive_bounds s F.
Hypothesis LF : leading_free s (k_ls (m_kernel (f_attr F))).
Hypothesis EO : get_opt_params s (f_attr F) = Ok (names, x0, bounds).
Hypothesis SK : ~ In "noise" names.
Hypothesis TR : trainable s F train b n.
Hypothesis BK : batch_ok train targets ix nn N b n c q.
Hypothesis CO : exists x, (x < b)%nat /\ coincident (full_noise s F) train n x (q x).

Lemma objective_singular t x : full_train_tensors F ix nn train targets = Ok t -> in_box x bounds ->
  obj_fn ls slogdet eps gamma kv s F l kw None draws (tr_pair t) (tr_cross t) (tr_nn_targets t) (tr_targets t) (combine names x) =
    Err LinAlgError.
Proof.
  intros Et BOX.
  assert (LEN : List.length x = List.length names).
  { rewrite (in_box_length _ _ BOX). apply (names_bounds_length s F names x0); auto. }
  pose proof TR as (BD & _).
  destruct (objective_is_score ls slogdet eps gamma kv s F names x0 bounds x MO BO BD LF EO LEN BOX (or_intror SK)) as (s' & F' & E & O & OBJ).
  destruct (candidate_trainable s F names x0 bounds x MO PB EO LEN BOX s' F' train b n E O TR) as (TR' & _ & TT).
  rewrite OBJ. apply (score_singular s' F' l kw train targets ix nn N b n c q draws t TR' BK); [|rewrite TT; exact Et].
  destruct CO as (y & Hy & C). exists y. split; [exact Hy|].
  apply (candidate_coincident s F names x0 bounds x s' F' train b n (q y) y); auto.
Qed.

Lemma training_singular opt :
  (forall f, (forall y, in_box y bounds -> f (combine names y) = Err LinAlgError) -> opt s F f = Err LinAlgError) ->
  optimize_from_indices ls slogdet eps gamma kv opt s F l kw None draws ix nn train targets = Err LinAlgError.
Proof.
  intros HO. destruct (tensors_total gamma kv s F train targets ix nn N b n c q TR BK) as (t & Et).
  unfold optimize_from_indices. rewrite Et. cbn [bind]. unfold optimize_call. apply HO. intros y By. apply objective_singular; assumption.
Qed.
End T.
