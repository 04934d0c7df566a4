(** Proofs about training one model per response. *)
From Coq Require Import Lia Lra FunctionalExtensionality.
From Verif Require Import Base BaseFacts NdModel NdFacts RSum LinAlgModel LinAlgSpec LinAlgFacts
  GPModel NoiseModel MuyGPSModel MuyGPSProofs GPSpec GPTheorems ScaleSpec ScaleProofs TensorModel TensorSpec TensorProofs
  HyperModel HyperSpec NamedModel NamedSpec NamedProofs KernelModel KernelSpec FlowModel FlowSpec FlowProofs PointwiseSpec LibSpec LibProofs
  LossModel LossSpec LossProofs ChassisModel ChassisSpec ChassisProofs ObjectiveProofs MultiModel MultiSpec MultiProofs DriverModel ClassifyModel ClassifySpec ClassifyProofs UqProofs
  WorkModel WorkSpec WorkProofs WorkLemmas NeighborsModel NeighborsSpec NeighborsProofs BatchProofs BatchLemmas
  TrainModel TrainSpec TrainProofs TrainProofs2 TrainProofs3 UqWorkSpec UqWorkProofs ClassTrainModel ClassTrainSpec ClassTrainProofs
  MultiTrainModel MultiTrainSpec.
Local Open Scope R_scope.

(** ** Later stores *)
Lemma extends_refl s : extends s s.
Proof. split; auto. Qed.
Lemma extends_trans s1 s2 s3 : extends s1 s2 -> extends s2 s3 -> extends s1 s3.
Proof. intros [A B] [C D]. split; [lia|]. intros l Hl. rewrite D, B by lia. reflexivity. Qed.

Definition placed (s : store) (F : full) : Prop := forall n, In n (declared (f_attr F)) -> (nm_loc n < st_next s)%nat.

Section Later.
Variables (s s' : store) (F : full).
Hypothesis EXT : extends s s'.
Hypothesis PL : placed s F.

Lemma later_cell n : In n (declared (f_attr F)) -> st_cell s' (nm_loc n) = st_cell s (nm_loc n).
Proof. intros H. apply EXT. apply PL. exact H. Qed.
Lemma later_real n : In n (declared (f_attr F)) -> reals s' (nm_loc n) = reals s (nm_loc n).
Proof. intros H. unfold reals. rewrite later_cell by auto. reflexivity. Qed.
Lemma kernel_declared n : In n (kernel_params (m_kernel (f_attr F))) -> In n (declared (f_attr F)).
Proof. intros H. unfold declared. apply in_app_iff. left. destruct (m_kernel (f_attr F)); exact H. Qed.
Lemma ls_declared n : In n (ls_elems (k_ls (m_kernel (f_attr F)))) -> In n (declared (f_attr F)).
Proof. intros H. apply kernel_declared. destruct (m_kernel (f_attr F)); cbn [kernel_params k_ls] in *; [exact H|apply in_app_iff; auto]. Qed.

Lemma later_filter l : (forall n, In n l -> In n (declared (f_attr F))) -> filter (free s') l = filter (free s) l.
Proof.
  intros H. apply filter_ext_in. intros n Hn. unfold free. rewrite later_cell by auto. reflexivity.
Qed.
Lemma later_opt_params : m_noise (f_attr F) <> NNull -> get_opt_params s' (f_attr F) = get_opt_params s (f_attr F).
Proof.
  intros NN. rewrite !get_opt_params_eq by auto. f_equal. rewrite later_filter by auto. unfold listed.
  assert (E : forall A (g g' : named -> A), (forall n, In n (declared (f_attr F)) -> g n = g' n) ->
     map g (filter (free s) (declared (f_attr F))) = map g' (filter (free s) (declared (f_attr F)))).
  { intros A g g' H. apply map_ext_in. intros n Hn. apply filter_In in Hn. apply H. tauto. }
  rewrite (E num (fun n => p_val (st_cell s' (nm_loc n))) (fun n => p_val (st_cell s (nm_loc n)))) by (intros; rewrite later_cell; auto).
  rewrite (E _ (fun n => p_bounds (st_cell s' (nm_loc n))) (fun n => p_bounds (st_cell s (nm_loc n)))) by (intros; rewrite later_cell; auto).
  reflexivity.
Qed.
Lemma later_fixed : model_ok s F -> model_fixed s' (f_attr F) = model_fixed s (f_attr F).
Proof.
  intros (B & NN & _). destruct (model_fixed_iff s (f_attr F) B NN) as (a & -> & Ha).
  destruct (model_fixed_iff s' (f_attr F) B NN) as (a' & -> & Ha'). rewrite later_opt_params in Ha' by auto.
  f_equal. destruct a, a'; auto; exfalso; intuition discriminate.
Qed.
Lemma later_make : model_make s' (f_attr F) = model_make s (f_attr F).
Proof.
  unfold model_make. f_equal. destruct (m_kernel (f_attr F)) as [lsc|lsc sm cc] eqn:E; cbn [kernel_make]; [reflexivity|].
  rewrite later_cell; [reflexivity|]. apply kernel_declared. rewrite E. apply in_app_iff. right. left. reflexivity.
Qed.
Lemma later_lib : full_lib s' F = full_lib s F.
Proof.
  unfold full_lib. destruct (full_deformation F); [|reflexivity]. destruct (m_kernel (f_attr F)) as [lsc|lsc sm cc] eqn:E; [reflexivity|].
  rewrite later_cell; [reflexivity|]. apply kernel_declared. rewrite E. apply in_app_iff. right. left. reflexivity.
Qed.
Lemma later_noise : full_noise s' F = full_noise s F.
Proof.
  unfold full_noise, noise_of. destruct (m_noise (f_attr F)) as [nm| |] eqn:E; [|reflexivity|reflexivity].
  rewrite later_real; [reflexivity|]. unfold declared. rewrite E. apply in_app_iff. right. left. reflexivity.
Qed.
Lemma later_scales d kw f : full_deformation F = Some d -> scale_of d (reals s') kw f = scale_of d (reals s) kw f.
Proof.
  intros Ed. pose proof ls_declared as LD. unfold full_deformation in Ed. destruct (k_ls (m_kernel (f_attr F))) as [nm|v|v]; try discriminate; injection Ed as <-;
    cbn [scale_of ls_elems] in *.
  - rewrite later_real by (apply LD; left; reflexivity). reflexivity.
  - f_equal. apply map_ext_in. intros e He. rewrite later_real by auto. reflexivity.
Qed.
Lemma lib_def K : full_lib s F = Some K -> full_deformation F = Some (lk_def K).
Proof.
  unfold full_lib. destruct (full_deformation F); [|discriminate]. destruct (m_kernel (f_attr F)); intros E; injection E as <-; reflexivity.
Qed.
Lemma later_cov gamma kv K f kw : full_lib s F = Some K -> lk_cov gamma kv K f (reals s') kw = lk_cov gamma kv K f (reals s) kw.
Proof.
  intros L. pose proof (lib_def K L) as D. extensionality z.
  assert (SC : forall a, scale_of (lk_def K) (reals s') kw a = scale_of (lk_def K) (reals s) kw a) by (intros; apply later_scales; auto).
  assert (SF : scale_of (lk_def K) (reals s') kw = scale_of (lk_def K) (reals s) kw) by (extensionality a; apply SC). clear SC.
  destruct K as [d|d sm p].
  - cbn [lk_cov lk_def] in *. unfold rbf_cov. rewrite SF. reflexivity.
  - cbn [lk_cov lk_def] in *. assert (ER : reals s' (nm_loc sm) = reals s (nm_loc sm)).
    { apply later_real. unfold full_lib in L. rewrite D in L. destruct (m_kernel (f_attr F)) as [lsc|lsc sm' cc] eqn:EM; [discriminate|].
      injection L as -> _. apply kernel_declared. rewrite EM. apply in_app_iff. right. left. reflexivity. }
    rewrite ER. unfold matern_cov. rewrite SF. reflexivity.
Qed.
Lemma later_lk_ok K f : full_lib s F = Some K -> lk_ok K f (reals s) [] -> lk_ok K f (reals s') [].
Proof.
  intros L (A & B & C & D). split; [exact A|]. split; [exact B|]. split; [|exact D].
  intros a Ha. rewrite later_scales by (apply lib_def; auto). apply C. exact Ha.
Qed.
Lemma later_trainable train b n : trainable s F train b n -> trainable s' F train b n.
Proof.
  intros (B & (K & L & OK) & NF & KI). split; [rewrite later_make; exact B|]. split; [exists K; split; [rewrite later_lib; exact L|apply later_lk_ok; auto]|].
  rewrite later_noise. auto.
Qed.
Lemma later_documented train b n : documented s F train b n -> documented s' F train b n.
Proof.
  intros (MO & BO & PB & LF & SK & TR & NN). pose proof MO as (M1 & M2 & M3 & M4).
  split; [split; [auto|split; [auto|split; [|auto]]]; intros; destruct EXT; specialize (M3 n0 H); lia|].
  split; [intros m Hm; rewrite later_cell by auto; apply BO; auto|].
  split; [intros m Hm; rewrite later_cell by auto; apply PB; auto|].
  split.
  { unfold leading_free in *. pose proof ls_declared as LD. destruct (k_ls (m_kernel (f_attr F))) as [nm|v|v]; auto.
    destruct LF as [k E]. exists k. rewrite later_filter by exact LD. exact E. }
  split; [intros names x0 bounds; rewrite later_opt_params by auto; apply SK|].
  split; [apply later_trainable; auto|]. intros x i. rewrite later_noise. apply NN.
Qed.
Lemma later_loo gamma kv l kw train y b n c q v : loo_value gamma kv s F l kw train y b n c q v -> loo_value gamma kv s' F l kw train y b n c q v.
Proof.
  intros (K & mean & var & sc & L & FL & P & V & S & BL & Ev). exists K, mean, var, sc, L.
  rewrite later_lib, later_noise, (later_cov gamma kv K) by auto. auto 10.
Qed.
End Later.

(** The model of a candidate in a later store, seen from an earlier and a still later one. *)
Lemma optimized_extends s F opt s' F' : optimized_model s F opt s' F' -> (st_next s <= st_next s')%nat -> extends s s'.
Proof. intros (A & _) H. split; auto. Qed.

Lemma optimized_between s s1 F opt s2 F' s3 : extends s s1 -> placed s F -> optimized_model s1 F opt s2 F' -> extends s2 s3 -> placed s2 F' ->
  (st_next s1 <= st_next s2)%nat -> optimized_model s F opt s3 F'.
Proof.
  intros E1 P1 (A & B & C) E2 P2 LE.
  split; [|split; [|exact C]].
  - intros l Hl. destruct E1 as [N1 C1], E2 as [N2 C2]. rewrite C2, A, C1 by lia. reflexivity.
  - clear C A. assert (HP : forall n', In n' (declared (f_attr F')) -> st_cell s3 (nm_loc n') = st_cell s2 (nm_loc n')).
    { intros n' Hn. apply E2, P2. exact Hn. }
    assert (HQ : forall n', In n' (declared (f_attr F)) -> st_cell s1 (nm_loc n') = st_cell s (nm_loc n')).
    { intros n' Hn. apply E1, P1. exact Hn. }
    induction B as [|a a' la la' O _ IH]; constructor.
    + unfold optimized in *. rewrite HQ in O by (left; reflexivity). rewrite HP by (left; reflexivity).
      destruct O as (O1 & O2 & O3). split; [exact O1|]. split; [destruct E1; lia|exact O3].
    + apply IH; intros; [apply HP|apply HQ]; right; auto.
Qed.

Lemma assign_all_next m names : forall s bounds opt s', assign_all s m names bounds opt = Ok s' -> st_next s' = st_next s.
Proof.
  induction names as [|k names IH]; intros s bounds opt s' E; cbn [assign_all] in E; [injection E as <-; reflexivity|].
  destruct bounds as [|[lb ub] bounds]; [discriminate|]. destruct (dget opt k); [|discriminate].
  destruct (assign_one s m k (clamp lb ub n)) as [s1|] eqn:E1; cbn [bind] in E; [|discriminate].
  rewrite (IH _ _ _ _ E). unfold assign_one in E1.
  assert (AP : forall nm v, assign_param s nm v = Ok s1 -> st_next s1 = st_next s).
  { intros nm v EA. unfold assign_param in EA. destruct (param_set_val _ _ _); cbn [bind] in EA; [|discriminate]. injection EA as <-. reflexivity. }
  destruct (String.eqb k "noise").
  - destruct (m_noise m); try discriminate. eapply AP; eauto.
  - destruct (String.index 0 "_knot" k).
    + destruct (dget (kernel_dict (m_kernel m)) (String.substring 0 n0 k)); discriminate.
    + destruct (dget (kernel_dict (m_kernel m)) k); [|discriminate]. eapply AP; eauto.
Qed.

Lemma new_muygps_next s F names bounds opt s' F' : new_muygps s F names bounds opt = Ok (s', F') -> placed s F ->
  st_next s' = (st_next s + st_next s)%nat /\ placed s' F'.
Proof.
  intros E P. pose proof (new_muygps_form _ _ _ _ _ _ _ E) as EF. unfold new_muygps in E. cbn [deepcopy] in E.
  destruct (assign_all _ _ _ _ _) as [s2|] eqn:EA; cbn [bind] in E; [|discriminate]. injection E as <- _.
  apply assign_all_next in EA. cbn [copy_store st_next] in EA. split; [exact EA|].
  intros n Hn. subst F'. cbn [full_make f_attr deepcopy snd] in Hn. rewrite declared_make, declared_move in Hn.
  apply in_map_iff in Hn as (n0 & <- & Hn). cbn [move_named nm_loc]. rewrite EA. specialize (P n0 Hn). lia.
Qed.

(** ** Same tensors *)
Lemma same_tensors_eq F F' ix nn train targets : same_tensors F F' ->
  full_train_tensors F ix nn train targets = full_train_tensors F' ix nn train targets.
Proof.
  unfold same_tensors, full_train_tensors. destruct (full_deformation F) as [d|]; [|contradiction].
  destruct (full_deformation F') as [d'|]; [|destruct d; contradiction].
  destruct d as [m nm|m nm|m v], d' as [m' nm'|m' nm'|m' v']; try contradiction; intros H; [subst m'|]; reflexivity.
Qed.
Lemma same_tensors_refl s F K : full_lib s F = Some K -> same_tensors F F.
Proof.
  intros L. pose proof (lib_def s F K L) as E. unfold same_tensors. unfold full_deformation in *. destruct (k_ls (m_kernel (f_attr F))); auto. discriminate.
Qed.
