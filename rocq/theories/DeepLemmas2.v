(** Lemmas for C73, C74 and C76: update frequency, and a concrete model whose training succeeds. *)
From Coq Require Import Lia Lra.
From Verif Require Import Base BaseFacts NdModel NdFacts RSum LinAlgModel LinAlgSpec LinAlgFacts Gauss GPModel NoiseModel NoiseProofs MuyGPSModel GPSpec
  TensorModel TensorSpec TensorProofs UqProofs FlowModel FlowSpec FlowProofs FlowLemmas MultiModel MultiSpec MultiProofs MuyGPSProofs LossModel LossSpec LossProofs
  BackendModel BackendProofs BackendProofs2 NeighborsModel DeepModel DeepSpec DeepProofs DeepLemmas.
Local Open Scope R_scope.

(** ** The update frequency does not matter *)
Section Frequency.
Variable P : Type.
Variable emb : bool -> nat -> P -> nd R -> nd R.
Variable L : Type.
Variable build : nd R -> nat -> result L.
Variable lookup_count : L -> nat.
Variable query : L -> nd R -> nat -> result (nd Z).
Variables bce ce : nd R -> nd R -> result R.
Variable opt : nat -> P -> list R -> P * list R.
Variable ls : lsolver.
Hypothesis Hemb : forall b b' d d' w x, emb b d w x = emb b' d' w x.
Notation step := (train_step P emb L build query bce ce opt ls).
Notation loop := (train_loop P emb L build query bce ce opt ls).
Notation run := (train_deep_kernel P emb L build lookup_count query bce ce opt ls).

Definition sim (m1 m2 : deep P) : Prop := dm_embedding P m1 = dm_embedding P m2 /\ dm_layer P m1 = dm_layer P m2.

Lemma step_sim k train responses bf br n f1 f2 i m1 m2 m1' m2' : sim m1 m2 ->
  step k train responses bf br n f1 i m1 = Ok m1' -> step k train responses bf br n f2 i m2 = Ok m2' -> sim m1' m2'.
Proof.
  intros [He Hl] E1 E2. unfold train_step, forward, embed in E1, E2. cbn [set_mode dm_embedding dm_layer dm_training dm_draws] in E1, E2.
  rewrite <- He, <- Hl in E2. destruct (dm_embedding P m1) as [w|]; [|discriminate]. cbn [bind dm_layer dm_embedding] in E1, E2.
  destruct (dm_layer P m1) as [y|]; [|discriminate]. rewrite (Hemb true true (dm_draws P m2) (dm_draws P m1)) in E2.
  destruct (layer_forward ls y _) as [[p v]|]; cbn [bind] in E1, E2; [|discriminate].
  destruct (deep_loss_value bce ce ls k p br v) as [lo|]; cbn [bind] in E1, E2; [|discriminate].
  unfold apply_step, model_parameters in E1, E2. cbn [dm_embedding dm_layer dm_nn_indices dm_nn_targets dm_training dm_draws] in E1, E2.
  destruct (opt i w (layer_parameters y)) as [w' v'].
  assert (H : forall (m : deep P) f m', (if update_due i f then
      bind (refresh P emb L build query (set_mode P false m) train responses bf n) (fun '(_, m) => Ok m) else Ok m) = Ok m' ->
    dm_embedding P m' = dm_embedding P m /\ dm_layer P m' = dm_layer P m).
  { intros m f m' E. destruct (update_due i f); [|injection E as <-; auto].
    destruct (refresh P emb L build query (set_mode P false m) train responses bf n) as [[nb m2x]|] eqn:ER; cbn [bind] in E; [|discriminate].
    injection E as <-. destruct (refresh_inv _ _ _ _ _ _ _ _ _ _ _ _ ER) as (wx & nn & T & H1 & H2 & H3 & _).
    cbn [set_mode dm_embedding dm_layer] in *. split; congruence. }
  destruct (H _ _ _ E1) as [A1 B1]. destruct (H _ _ _ E2) as [A2 B2]. cbn [dm_embedding dm_layer] in *.
  split; congruence.
Qed.

Lemma loop_sim k train responses bf br n f1 f2 todo : forall i m1 m2 m1' m2', sim m1 m2 ->
  loop k train responses bf br n f1 i todo m1 = Ok m1' -> loop k train responses bf br n f2 i todo m2 = Ok m2' -> sim m1' m2'.
Proof.
  induction todo as [|todo IH]; intros i m1 m2 m1' m2' Hs E1 E2.
  - injection E1 as <-. injection E2 as <-. exact Hs.
  - cbn [train_loop] in E1, E2.
    destruct (step k train responses bf br n f1 i m1) as [a1|] eqn:S1; cbn [bind] in E1; [|discriminate].
    destruct (step k train responses bf br n f2 i m2) as [a2|] eqn:S2; cbn [bind] in E2; [|discriminate].
    exact (IH _ _ _ _ _ (step_sim _ _ _ _ _ _ _ _ _ _ _ _ _ Hs S1 S2) E1 E2).
Qed.

Lemma run_frequency m train responses ix nbrs iters lf f1 f2 n1 m1 n2 m2 :
  run m train responses ix nbrs iters lf f1 = Ok (n1, m1) -> run m train responses ix nbrs iters lf f2 = Ok (n2, m2) ->
  n1 = n2 /\ dm_embedding P m1 = dm_embedding P m2 /\ dm_layer P m1 = dm_layer P m2 /\
  dm_nn_indices P m1 = dm_nn_indices P m2 /\ dm_nn_targets P m1 = dm_nn_targets P m2.
Proof.
  intros E1 E2.
  eapply run_inv in E1; destruct E1 as (k & bf & br & a1 & K1 & B1 & R1 & L1 & F1).
  eapply run_inv in E2; destruct E2 as (k' & bf' & br' & a2 & K2 & B2 & R2 & L2 & F2).
  assert (k' = k) by congruence. assert (bf' = bf) by congruence. assert (br' = br) by congruence. subst k' bf' br'.
  destruct (loop_sim _ _ _ _ _ _ _ _ _ _ _ _ _ _ (conj eq_refl eq_refl : sim m m) L1 L2) as [He Hl].
  destruct (refresh_inv _ _ _ _ _ _ _ _ _ _ _ _ F1) as (w & nn & T & H1 & H2 & H3 & H4 & H5 & H6 & H7 & H8 & H9).
  destruct (refresh_inv _ _ _ _ _ _ _ _ _ _ _ _ F2) as (w' & nn' & T' & G1 & G2 & G3 & G4 & G5 & G6 & G7 & G8 & G9).
  assert (w' = w) by congruence. subst w'.
  rewrite (Hemb (dm_training P a2) (dm_training P a1) (dm_draws P a2) (dm_draws P a1)) in G5.
  assert (n1 = n2) by congruence. subst n2.
  rewrite (Hemb (dm_training P a2) (dm_training P a1) (S (dm_draws P a2)) (S (dm_draws P a1))) in G6.
  assert (nn' = nn) by congruence. subst nn'. assert (T' = T) by congruence. subst T'.
  split; [auto|]. split; [congruence|]. split; [congruence|]. split; congruence.
Qed.
End Frequency.

(** ** A concrete model *)
(** Identity embedding with one (unused) weight; lookups are the training features themselves; the neighbours of the three training points
    are the points themselves and one other. *)
Definition exd_emb (b : bool) (d : nat) (w : R) (x : nd R) : nd R := x.
Definition exd_build (x : nd R) (n : nat) : result (nd R) := Ok x.
Definition exd_count (x : nd R) : nat := 2%nat.
Definition exd_nn : nd Z := mkNd [3; 2]%nat (fun idx => match idx with [c; j] => Z.of_nat (ex_p c j) | _ => 0%Z end).
Definition exd_query (l x : nd R) (n : nat) : result (nd Z) := Ok exd_nn.
Definition exd_opt (i : nat) (w : R) (v : list R) : R * list R := (w + 1, map (fun x => x + 1) v).
Definition exd_loss (p t : nd R) : result R := Ok 0.
Definition exd_taken (nn : nd Z) : nd R := match take ex_targets nn with Ok t => t | Err _ => ex_targets end.
Definition exd_layer (l : R) (nn : nd Z) : layer1 :=
  mkLayer1 ex_gp (fun _ => exk_nd) l (Some (1 / 2, 2)) (arange 3) nn ex_targets (exd_taken nn).
Definition exd : deep R := mkDeep R (Some 0) (Some (Single (exd_layer 1 ex_nn))) ex_nn (exd_taken ex_nn) false 0.

Lemma exd_nn_ok : index_matrix exd_nn 3 2 3 ex_p.
Proof.
  split; [reflexivity|]. intros x j Hx Hj. split; [reflexivity|].
  destruct x as [|[|[|x]]], j as [|j]; cbn; lia.
Qed.
Lemma exd_take nn q : index_matrix nn 3 2 3 q -> take ex_targets nn = Ok (exd_taken nn) /\
  shape (exd_taken nn) = [3; 2; 1]%nat /\
  forall c j s, (c < 3)%nat -> (j < 2)%nat -> (s < 1)%nat -> at_ (exd_taken nn) [c; j; s] = at_ ex_targets [q c j; s].
Proof.
  intros [Sn Hn]. unfold exd_taken, take. cbn [shape ex_targets]. rewrite Sn. cbn [List.length app firstn skipn].
  assert (H : forallb (fun ix => match norm_index 3 (at_ nn ix) with Some _ => true | None => false end) (all_idx [3; 2]%nat) = true).
  { apply forallb_forall. intros ix Hix. apply in_all_idx in Hix. apply inb_inv2 in Hix as (c & j & -> & Hc & Hj).
    destruct (Hn c j Hc Hj) as [-> Hl]. rewrite norm_index_nat by auto. reflexivity. }
  rewrite H. split; [reflexivity|]. split; [reflexivity|]. intros c j s Hc Hj Hs. cbn [at_ firstn skipn].
  destruct (Hn c j Hc Hj) as [-> Hl]. rewrite norm_index_nat by auto. reflexivity.
Qed.

Lemma exd_forward l nn q : index_matrix nn 3 2 3 q -> (forall a, (a < 3)%nat -> q a 0%nat <> q a 1%nat) ->
  exists p v, layer1_forward gauss (exd_layer l nn) ex_train = Ok (p, v) /\ shape p = [3; 1]%nat /\ shape v = [3]%nat.
Proof.
  intros Hn Hq. destruct (exd_take nn q Hn) as (ET & _ & _).
  destruct (layer1_posterior gauss (exd_layer l nn) 1 exk ex_train ex_targets 3 3 2 q (fun a => a) 1) as (p & v & E & Sp & Sv & _);
    try reflexivity; auto using gauss_exact, exk_pointwise.
  - intros a Ha. apply ex_flow_ns. auto.
  - eauto.
Qed.

Lemma exd_loss_ok k p t v : (k = LMse \/ k = LLool) -> shape p = [3; 1]%nat -> shape t = [3; 1]%nat -> shape v = [3]%nat ->
  exists l, deep_loss_value exd_loss exd_loss gauss k p t v = Ok l.
Proof.
  intros [->| ->] Sp St Sv.
  - cbn [deep_loss_value]. unfold mse_loss. destruct (bop_same Rminus p t) as (r & -> & _); [congruence|]. cbn [bind]. eauto.
  - rewrite (lool_value_column _ _ _ _ _ _ 3 Sp St Sv). eauto.
Qed.

Notation exd_step := (train_step R exd_emb (nd R) exd_build exd_query exd_loss exd_loss exd_opt gauss).
Notation exd_train := (train_deep_kernel R exd_emb (nd R) exd_build exd_count exd_query exd_loss exd_loss exd_opt gauss).

Lemma exd_refresh m bf : dm_embedding R m <> None ->
  exists m', refresh R exd_emb (nd R) exd_build exd_query m ex_train ex_targets bf 2 = Ok (ex_train, m') /\
    dm_embedding R m' = dm_embedding R m /\ dm_layer R m' = dm_layer R m /\ dm_nn_indices R m' = exd_nn /\ dm_nn_targets R m' = exd_taken exd_nn /\
    dm_training R m' = dm_training R m.
Proof.
  intros He. unfold refresh, embed. destruct (dm_embedding R m) as [w|] eqn:E; [|contradiction].
  cbn [bind dm_embedding]. unfold exd_build at 1. cbn [bind exd_query].
  unfold to_take. rewrite (proj1 (exd_take exd_nn ex_p exd_nn_ok)). cbn [bind].
  eexists. split; [reflexivity|]. cbn. rewrite ?E. auto 10.
Qed.

Lemma exd_step_ok k i m w l bf br freq : (k = LMse \/ k = LLool) -> shape br = [3; 1]%nat ->
  dm_embedding R m = Some w -> dm_layer R m = Some (Single (exd_layer l ex_nn)) ->
  exists m', exd_step k ex_train ex_targets bf br 2 freq i m = Ok m' /\
    dm_embedding R m' = Some (w + 1) /\ dm_layer R m' = Some (Single (exd_layer (l + 1) ex_nn)).
Proof.
  intros Hk Sb He Hl. unfold train_step, forward, embed. cbn [set_mode dm_embedding dm_layer dm_training dm_draws].
  rewrite He. cbn [bind dm_layer]. rewrite Hl. unfold exd_emb at 1. cbn [layer_forward].
  destruct (exd_forward l ex_nn ex_q ex_nn_ok) as (p & v & EF & Sp & Sv).
  { intros a Ha. destruct a as [|[|[|a]]]; cbn; lia. }
  rewrite EF. cbn [bind]. destruct (exd_loss_ok k p br v Hk Sp Sb Sv) as (lo & ->). cbn [bind].
  unfold apply_step. cbn [dm_embedding dm_layer model_parameters layer_parameters exd_layer l1_length_scale]. rewrite ?He, ?Hl.
  unfold model_parameters. cbn [dm_layer]. rewrite ?Hl. cbn [layer_parameters exd_opt map layer_set_parameters].
  unfold exd_layer at 1. cbn [l1_gp l1_kernel l1_length_scale l1_bounds l1_indices l1_nn_indices l1_targets l1_nn_targets].
  destruct (update_due i freq).
  - match goal with |- context [refresh _ _ _ _ _ ?mm _ _ _ _] => destruct (exd_refresh mm bf) as (m' & -> & H1 & H2 & _); [discriminate|] end.
    cbn [bind]. exists m'. split; [reflexivity|]. rewrite H1, H2. split; reflexivity.
  - eexists. split; [reflexivity|]. split; reflexivity.
Qed.

Lemma exd_loop_ok k bf br freq todo : (k = LMse \/ k = LLool) -> shape br = [3; 1]%nat -> forall i m w l,
  dm_embedding R m = Some w -> dm_layer R m = Some (Single (exd_layer l ex_nn)) ->
  exists m', train_loop R exd_emb (nd R) exd_build exd_query exd_loss exd_loss exd_opt gauss k ex_train ex_targets bf br 2 freq i todo m = Ok m' /\
    dm_embedding R m' = Some (w + INR todo) /\ dm_layer R m' = Some (Single (exd_layer (l + INR todo) ex_nn)).
Proof.
  intros Hk Sb. induction todo as [|todo IH]; intros i m w l He Hl.
  - exists m. cbn [INR]. rewrite !Rplus_0_r. auto.
  - cbn [train_loop]. destruct (exd_step_ok k i m w l bf br freq Hk Sb He Hl) as (m1 & -> & He1 & Hl1). cbn [bind].
    destruct (IH (S i) m1 _ _ He1 Hl1) as (m2 & E & H1 & H2). exists m2. split; [exact E|].
    rewrite S_INR. replace (w + (INR todo + 1)) with (w + 1 + INR todo) by ring. replace (l + (INR todo + 1)) with (l + 1 + INR todo) by ring. auto.
Qed.

(** Training this model succeeds, whatever the iteration count and the update frequency. *)
Lemma exd_train_ok iters lf freq : lf = "mse"%string \/ lf = "lool"%string ->
  exists m', exd_train exd ex_train ex_targets (arange 3) ex_train iters lf freq = Ok (ex_train, m') /\
    dm_embedding R m' = Some (INR iters) /\ dm_layer R m' = Some (Single (exd_layer (1 + INR iters) ex_nn)) /\
    dm_nn_indices R m' = exd_nn /\ dm_nn_targets R m' = exd_taken exd_nn.
Proof.
  intros Hlf. unfold train_deep_kernel. cbn [exd dm_embedding exd_count].
  assert (Hf : forall t : nd R, shape t = [3; 1]%nat -> exists u, to_take t (arange 3) = Ok u /\ shape u = [3; 1]%nat).
  { intros t St. unfold to_take, take. rewrite St. cbn. eexists. split; reflexivity. }
  destruct (Hf ex_train eq_refl) as (bf & -> & _). destruct (Hf ex_targets eq_refl) as (br & -> & Sb). cbn [bind].
  assert (Hk : exists k, parse_loss lf = Ok k /\ (k = LMse \/ k = LLool)).
  { destruct Hlf as [->| ->]; eexists; (split; [reflexivity|auto]). }
  destruct Hk as (k & -> & Hk). cbn [bind].
  destruct (exd_loop_ok k bf br freq iters Hk Sb 0 exd 0 1 eq_refl eq_refl) as (m1 & E & H1 & H2). unfold exd_count; rewrite E. cbn [bind].
  destruct (exd_refresh m1 bf) as (m' & -> & G1 & G2 & G3 & G4 & G5); [congruence|].
  exists m'. rewrite G1, G2, H1, H2, Rplus_0_l. auto.
Qed.

Lemma exd_attributes_differ : at_ exd_nn [0; 0]%nat <> at_ ex_nn [0; 0]%nat.
Proof. cbn. discriminate. Qed.

(** ** Forms used by DeepProps *)
Lemma layer_constructors d g kern l bounds ix nn targets nn_targets ms :
  (d = IsotropyScalar -> layer1_init d g kern l bounds ix nn targets nn_targets = Ok (mkLayer1 g kern l bounds ix nn targets nn_targets)) /\
  (d <> IsotropyScalar -> layer1_init d g kern l bounds ix nn targets nn_targets = Err NotImplementedError) /\
  (ms <> [] -> layerM_init ms ix nn targets nn_targets = Ok (mkLayerM ms ix nn targets nn_targets)) /\
  (ms = [] -> layerM_init ms ix nn targets nn_targets = Err IndexError).
Proof.
  split; [intros ->; reflexivity|]. split; [destruct d; [contradiction|reflexivity|reflexivity]|].
  split; [destruct ms; [contradiction|reflexivity]|intros ->; reflexivity].
Qed.

Lemma exd_ne a : (a < 3)%nat -> ex_q a 0%nat <> ex_q a 1%nat.
Proof. intros Ha. destruct a as [|[|[|a]]]; cbn; lia. Qed.
Lemma exp_ne a : (a < 3)%nat -> ex_p a 0%nat <> ex_p a 1%nat.
Proof. intros Ha. destruct a as [|[|[|a]]]; cbn; lia. Qed.

Lemma variance_shape : exists y x p v, layer1_forward gauss y x = Ok (p, v) /\ shape p = [3; 1]%nat /\ shape v <> shape p.
Proof.
  destruct (exd_forward 1 ex_nn ex_q ex_nn_ok exd_ne) as (p & v & E & Sp & Sv).
  exists (exd_layer 1 ex_nn), ex_train, p, v. split; [exact E|]. split; [exact Sp|]. rewrite Sp, Sv. discriminate.
Qed.

Lemma exd_sat : exact_solver gauss /\ pointwise_kernel 1 exk_nd exk /\ take ex_targets ex_nn = Ok (exd_taken ex_nn) /\
  index_matrix ex_nn 3 2 3 ex_q /\ (forall a, (a < 3)%nat -> nonsingular 2 (nbr_matrix exk NullNoise ex_train ex_q a)).
Proof.
  split; [exact gauss_exact|]. split; [exact exk_pointwise|]. split; [exact (proj1 (exd_take _ _ ex_nn_ok))|]. split; [exact ex_nn_ok|].
  intros a Ha. apply ex_flow_ns, exd_ne, Ha.
Qed.

Lemma exd_predict_ok : exists p v m', predict_model R exd_emb (nd R) exd_query gauss exd ex_train ex_train ex_targets ex_train 2 = Ok (p, v, m').
Proof.
  destruct (predict_single R exd_emb (nd R) exd_query gauss gauss_exact exd 0 (exd_layer 1 ex_nn) ex_train 2%nat ex_train ex_train ex_targets exd_nn
    1 exk 3 3 2 ex_p 1) as (p & v & m' & E & _); try reflexivity; auto using exk_pointwise, exd_nn_ok.
  - intros x Hx. apply ex_flow_ns, exp_ne, Hx.
  - eauto.
Qed.

Section Training.
Variable P : Type.
Variable emb : bool -> nat -> P -> nd R -> nd R.
Variable L : Type.
Variable build : nd R -> nat -> result L.
Variable lookup_count : L -> nat.
Variable query : L -> nd R -> nat -> result (nd Z).
Variables bce ce : nd R -> nd R -> result R.
Variable opt : nat -> P -> list R -> P * list R.
Variable ls : lsolver.
Notation run := (train_deep_kernel P emb L build lookup_count query bce ce opt ls).
Notation update := (update_nearest_neighbors P emb L build query).

Lemma run_eval m m' train responses ix nbrs nbrs' t lf freq :
  run m train responses ix nbrs (S t) lf freq = Ok (nbrs', m') -> (Z.of_nat t mod freq = 0)%Z ->
  exists w d, dm_embedding P m' = Some w /\ build (emb false d w train) (lookup_count nbrs) = Ok nbrs' /\ dm_training P m' = false.
Proof.
  intros E Ht. pose proof E as E'. eapply run_mode in E. eapply run_lookup in E'. destruct E' as (w & d & bf & Hw & _ & Hb & _).
  assert (Hm : dm_training P m' = false).
  { rewrite E. unfold update_due. rewrite Ht. destruct (freq =? 0)%Z; reflexivity. }
  rewrite Hm in Hb. eauto.
Qed.
Lemma run_train_mode m m' train responses ix nbrs nbrs' t lf freq :
  run m train responses ix nbrs (S t) lf freq = Ok (nbrs', m') -> (freq <> 0)%Z -> (Z.of_nat t mod freq <> 0)%Z ->
  exists w d, dm_embedding P m' = Some w /\ build (emb true d w train) (lookup_count nbrs) = Ok nbrs' /\ dm_training P m' = true.
Proof.
  intros E Hf Ht. pose proof E as E'. eapply run_mode in E. eapply run_lookup in E'. destruct E' as (w & d & bf & Hw & _ & Hb & _).
  assert (Hm : dm_training P m' = true).
  { rewrite E. unfold update_due. apply Z.eqb_neq in Hf, Ht. rewrite Hf, Ht. reflexivity. }
  rewrite Hm in Hb. eauto.
Qed.
Lemma training_missing m train responses ix nbrs iters lf freq n :
  dm_embedding P m = None -> run m train responses ix nbrs iters lf freq = Err NotImplementedError /\
  update m train responses ix n = Err NotImplementedError.
Proof. intros H. unfold train_deep_kernel, update_nearest_neighbors. rewrite H. auto. Qed.

Lemma update_ignored m m' train responses ix n nbrs :
  update m train responses ix n = Ok (nbrs, m') ->
  dm_embedding P m' = dm_embedding P m /\ dm_layer P m' = dm_layer P m /\
  ((forall d d' w z, emb false d w z = emb false d' w z) -> dm_training P m = false ->
   forall x, rmap fst (forward P emb ls m' x) = rmap fst (forward P emb ls m x)).
Proof.
  intros E. eapply update_inv in E. destruct E as (w & bf & H1 & H2 & H3 & H4 & _).
  split; [congruence|]. split; [exact H3|]. intros He Hm x. apply forward_frame; auto; congruence.
Qed.

Lemma update_self_first m m' train responses ix n nbrs F N b w c wt bf :
  update m train responses ix n = Ok (nbrs, m') -> dm_embedding P m = Some wt -> take train ix = Ok bf ->
  let e := emb (dm_training P m) (dm_draws P m) wt train in
  let eb := emb (dm_training P m) (S (dm_draws P m)) wt bf in
  (forall nn, query nbrs eb n = Ok nn -> closest_rows F N b w e eb nn) ->
  rows_of b F e eb c -> (forall a, (a < b)%nat -> (c a < N)%nat) -> distinct_rows N F e -> (0 < w)%nat ->
  forall a, (a < b)%nat -> at_ (dm_nn_indices P m') [a; O] = Z.of_nat (c a).
Proof.
  intros E Hw Hb e eb Hq Hr Hc Hd Hpos. eapply update_inv in E. destruct E as (w' & bf' & H1 & H2 & H3 & H4 & H5 & H6 & H7 & H8).
  assert (w' = wt) by congruence. assert (bf' = bf) by congruence. subst w' bf'.
  exact (self_first F N b w e eb _ c (Hq _ H7) Hr Hc Hd Hpos).
Qed.

Lemma run_frame m m' train responses ix nbrs nbrs' iters lf freq y :
  dm_layer P m = Some y -> run m train responses ix nbrs iters lf freq = Ok (nbrs', m') ->
  match y with
  | Single y => exists y', dm_layer P m' = Some (Single y') /\ l1_gp y' = l1_gp y /\ l1_kernel y' = l1_kernel y /\ l1_bounds y' = l1_bounds y /\
      l1_indices y' = l1_indices y /\ l1_nn_indices y' = l1_nn_indices y /\ l1_targets y' = l1_targets y /\ l1_nn_targets y' = l1_nn_targets y
  | Multi y => dm_layer P m' = Some (Multi y)
  end.
Proof.
  intros Hy E. eapply run_layer in E; [|exact Hy]. destruct E as (y' & Hy' & v & ->). destruct y as [y|y].
  - destruct v as [|l [|l' v]]; cbn [layer_set_parameters] in Hy'; eexists; (split; [exact Hy'|]); cbn; auto 10.
  - exact Hy'.
Qed.

Lemma parse_loss_in lf k : parse_loss lf = Ok k -> In (lower lf) ["mse"; "bce"; "ce"; "lool"]%string.
Proof.
  unfold parse_loss. destruct (String.eqb_spec (lower lf) "mse") as [->|]; [cbn; auto|].
  destruct (String.eqb_spec (lower lf) "bce") as [->|]; [cbn; auto|]. destruct (String.eqb_spec (lower lf) "ce") as [->|]; [cbn; auto|].
  destruct (String.eqb_spec (lower lf) "lool") as [->|]; [cbn; auto|discriminate].
Qed.
Lemma parse_loss_out lf : ~ In (lower lf) ["mse"; "bce"; "ce"; "lool"]%string -> parse_loss lf = Err ValueError.
Proof.
  intros H. unfold parse_loss. destruct (String.eqb_spec (lower lf) "mse") as [E|]; [exfalso; apply H; rewrite E; cbn; auto|].
  destruct (String.eqb_spec (lower lf) "bce") as [E|]; [exfalso; apply H; rewrite E; cbn; auto|].
  destruct (String.eqb_spec (lower lf) "ce") as [E|]; [exfalso; apply H; rewrite E; cbn; auto|].
  destruct (String.eqb_spec (lower lf) "lool") as [E|]; [exfalso; apply H; rewrite E; cbn; auto|reflexivity].
Qed.

Lemma run_names m train responses ix nbrs iters lf freq :
  (forall r, run m train responses ix nbrs iters lf freq = Ok r -> In (lower lf) ["mse"; "bce"; "ce"; "lool"]%string) /\
  (~ In (lower lf) ["mse"; "bce"; "ce"; "lool"]%string -> (exists w, dm_embedding P m = Some w) ->
   (exists bf, take train ix = Ok bf) -> (exists br, take responses ix = Ok br) ->
   run m train responses ix nbrs iters lf freq = Err ValueError).
Proof.
  split.
  - intros [nb m'] E. eapply run_inv in E. destruct E as (k & bf & br & m1 & Hk & _). exact (parse_loss_in _ _ Hk).
  - intros Hn (w & Hw) (bf & Hb) (br & Hr). unfold train_deep_kernel, to_take. rewrite Hw, Hb, Hr. cbn [bind].
    rewrite (parse_loss_out _ Hn). reflexivity.
Qed.
Lemma run_case m train responses ix nbrs iters lf lf' freq : lower lf = lower lf' ->
  run m train responses ix nbrs iters lf freq = run m train responses ix nbrs iters lf' freq.
Proof. intros H. unfold train_deep_kernel, parse_loss. rewrite H. reflexivity. Qed.
Lemma run_l1 m train responses ix nbrs iters freq r : run m train responses ix nbrs iters "l1" freq <> Ok r.
Proof.
  intros E. apply (proj1 (run_names m train responses ix nbrs iters "l1" freq)) in E.
  replace (lower "l1") with "l1"%string in E by reflexivity. cbn in E. intuition discriminate.
Qed.
End Training.

Lemma exd_layer_differs iters freq :
  exists m' y', exd_train exd ex_train ex_targets (arange 3) ex_train iters "lool" freq = Ok (ex_train, m') /\
    dm_layer R m' = Some (Single y') /\ at_ (l1_nn_indices y') [0; 0]%nat <> at_ (dm_nn_indices R m') [0; 0]%nat.
Proof.
  destruct (exd_train_ok iters "lool" freq) as (m' & E & _ & Hl & Hn & _); [auto|]. exists m'. eexists. split; [exact E|]. split; [exact Hl|].
  rewrite Hn. discriminate.
Qed.
Lemma exd_out_of_bounds : exists m' y',
  exd_train exd ex_train ex_targets (arange 3) ex_train 2 "lool" 1 = Ok (ex_train, m') /\
  dm_layer R m' = Some (Single y') /\ l1_bounds y' = Some (1 / 2, 2) /\ 2 < l1_length_scale y'.
Proof.
  destruct (exd_train_ok 2 "lool" 1) as (m' & E & _ & Hl & Hn & _); [auto|]. exists m'. eexists. split; [exact E|]. split; [exact Hl|].
  split; [reflexivity|]. cbn. lra.
Qed.
Lemma exd_run iters freq : exists r, exd_train exd ex_train ex_targets (arange 3) ex_train iters "mse" freq = Ok r.
Proof. destruct (exd_train_ok iters "mse" freq) as (m' & E & _); eauto. Qed.

Lemma exd_row_dist i j : row_dist 1 ex_train ex_train i j = (INR i - INR j) ^ 2.
Proof. unfold row_dist. cbn [rsum ex_train at_ hd]. ring. Qed.
Lemma exd_self : closest_rows 1 3 3 2 ex_train ex_train exd_nn /\ rows_of 3 1 ex_train ex_train (fun a => a) /\ distinct_rows 3 1 ex_train /\
  exists m', update_nearest_neighbors R exd_emb (nd R) exd_build exd_query exd ex_train ex_targets (arange 3) 2 = Ok (ex_train, m') /\
    dm_nn_indices R m' = exd_nn.
Proof.
  split; [|split; [|split]].
  - split; [reflexivity|]. exists ex_p. intros a Ha. split; [|split; [|split]].
    + intros j Hj. exact (proj2 exd_nn_ok a j Ha Hj).
    + intros i j Hi Hj Hij. destruct i as [|[|i]], j as [|[|j]]; try lia; exfalso; [apply (exp_ne a Ha)|apply (exp_ne a Ha)]; auto.
    + intros i j Hi Hj. rewrite !exd_row_dist. destruct i as [|[|i]], j as [|[|j]]; try lia.
      destruct a as [|[|[|a]]]; try lia; cbn; lra.
    + intros i j Hi Hj Hno. rewrite !exd_row_dist.
      destruct a as [|[|[|a]]]; try lia; destruct j as [|[|j]]; try lia; destruct i as [|[|[|i]]]; try lia;
        try (exfalso; apply (Hno 0%nat); [lia|reflexivity]); try (exfalso; apply (Hno 1%nat); [lia|reflexivity]); cbn; lra.
  - split; reflexivity.
  - intros i j Hi Hj Hne. rewrite exd_row_dist. destruct i as [|[|[|i]]], j as [|[|[|j]]]; try lia; cbn; lra.
  - unfold update_nearest_neighbors. cbn [exd dm_embedding].
    assert (Hf : exists u, to_take ex_train (arange 3) = Ok u) by (eexists; reflexivity). destruct Hf as (u & ->). cbn [bind].
    destruct (exd_refresh exd u) as (m' & E & _ & _ & Hn & _); [discriminate|]. exists m'. split; [exact E|exact Hn].
Qed.

Lemma exd_leak : (forall d, exk (fun f => - d f) = exk d) /\ index_matrix exd_nn 3 2 3 ex_p /\ (forall a, (a < 3)%nat -> ex_p a O = a) /\
  take ex_targets exd_nn = Ok (exd_taken exd_nn) /\ (forall a, (a < 3)%nat -> nonsingular 2 (nbr_matrix exk NullNoise ex_train ex_p a)).
Proof.
  split. { intros d. unfold exk. destruct (Req_EM_T (- d O) 0), (Req_EM_T (d O) 0); auto; exfalso; lra. }
  split; [exact exd_nn_ok|]. split; [reflexivity|]. split; [exact (proj1 (exd_take _ _ exd_nn_ok))|].
  intros a Ha. apply ex_flow_ns, exp_ne, Ha.
Qed.

Lemma lool_multi bce ce ls p t v b r : shape p = [b; r] -> shape t = [b; r] -> shape v = [b; r] ->
  deep_loss_value bce ce ls LLool p t v =
  Ok (rsum b (fun x => rsum r (fun s => (at_ p [x; s] - at_ t [x; s]) ^ 2 / at_ v [x; s] + ln (at_ v [x; s])))).
Proof. intros Sp St Sv. rewrite (lool_value bce ce ls p t v [b; r] Sp St Sv) by (cbn; lia). reflexivity. Qed.
Lemma mse_value bce ce ls p t v b r : shape p = [b; r] -> shape t = [b; r] ->
  deep_loss_value bce ce ls LMse p t v =
  Ok (rsum b (fun x => rsum r (fun s => (at_ p [x; s] - at_ t [x; s]) ^ 2)) / INR (b * r)).
Proof.
  intros Sp St. cbn [deep_loss_value]. unfold mse_loss. destruct (bop_same Rminus p t) as (d & -> & Sd & Ad); [congruence|]. cbn [bind].
  rewrite Sd, Sp, nprod2. f_equal. f_equal. rewrite nd_sum_total. cbn [ndmap shape]. rewrite Sd, Sp. cbn [total].
  apply rsum_ext. intros x Hx. apply rsum_ext. intros s Hs. cbn [ndmap at_]. rewrite Ad by (rewrite Sp; apply inb2; auto). reflexivity.
Qed.
Lemma lool_example : deep_loss_value exd_loss exd_loss gauss LLool ex_targets ex_targets (mkNd [3]%nat (fun _ => 1)) = Ok 0.
Proof.
  rewrite (lool_value_column _ _ _ _ _ _ 3) by reflexivity. f_equal. rewrite (rsum_ext _ _ (fun _ => 0)); [apply rsum_0|].
  intros i Hi. unfold lool_term. cbn [at_]. rewrite ln_1. unfold Rminus. rewrite Rplus_opp_r. field.
Qed.
