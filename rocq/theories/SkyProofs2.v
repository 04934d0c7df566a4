(** Lemmas for C118: complete predictions and the training objective. *)
From Coq Require Import Lia Lra.
From Verif Require Import Base BaseFacts NdModel NdFacts RSum LinAlgModel LinAlgSpec LinAlgFacts GPModel NoiseModel NoiseProofs WellPosedProofs GPTheorems
  MuyGPSModel GPSpec MuyGPSProofs TensorModel TensorSpec TensorProofs KernelSpec HyperModel NamedModel NamedSpec KernelModel
  FlowSpec LossModel LossSpec ChassisModel ChassisSpec WorkSpec TrainSpec
  ShearModel ShearSpec ShearFlowSpec ShearProofs ShearLemmas ShearPsd ShearGram ShearFlow
  ShearTrainModel ShearTrainSpec ShearTrainProofs ShearTrainProofs2 SkySpec SkyProofs.
Local Open Scope R_scope.

Lemma stacked_ns l s k pt n d : 0 < l -> (forall p, (p < n)%nat -> 0 < d p) -> nonsingular n (plus_diag (stacked_cov l s k pt) d).
Proof. intros Hl Hd. apply pd_nonsingular, plus_diag_pd; auto. apply stacked_psd; auto. Qed.

Lemma shape_sr km : (unobserved km = 0 /\ observed km = 3)%nat \/ (unobserved km = 1 /\ observed km = 2)%nat.
Proof. destruct km; [left|right]; split; reflexivity. Qed.

Lemma noise_turn g km sn v k : (sn = true -> km = Full33) -> (0 < k)%nat ->
  forall a a' i, (a < observed km)%nat -> (a' < observed km)%nat -> (i < k)%nat ->
  turn g (unobserved km + a) (unobserved km + a') * obs_noise sn v k (a * k + i)%nat =
  turn g (unobserved km + a) (unobserved km + a') * obs_noise sn v k (a' * k + i)%nat.
Proof.
  intros SNF Hk a a' i Ha Ha' Hi. destruct sn; [|reflexivity]. rewrite (SNF eq_refl) in *. cbn [unobserved observed plus] in *.
  assert (E : forall c, (c < 3)%nat -> obs_noise true v k (c * k + i)%nat = if (c =? 0)%nat then 2 * v else v).
  { intros c Hc. cbn [obs_noise]. unfold shear_noise. destruct c as [|c]; cbn [Nat.eqb].
    - destruct (Nat.ltb_spec (0 * k + i) k); [reflexivity|lia].
    - destruct (Nat.ltb_spec (S c * k + i) k); [nia|reflexivity]. }
  rewrite !E by auto. destruct a as [|[|[|a]]]; try lia; (destruct a' as [|[|[|a']]]; try lia); cbn [Nat.eqb turn]; ring.
Qed.

Section Pred.
Variables (g : motion) (km : shear_model) (sn : bool) (l v : R) (k : nat).
Hypothesis HR : rigid g.
Hypothesis Hl : 0 < l.
Hypothesis Hv : 0 < v.
Hypothesis SNF : sn = true -> km = Full33.
Hypothesis Hk : (0 < k)%nat.
Variables (train train' targets targets' : nd R) (n : nat) (rows : nat -> nat).
Hypothesis MT : moved g train train' n.
Hypothesis TT : turned g targets targets' n.
Hypothesis RI : forall i, (i < k)%nat -> (rows i < n)%nat.

Lemma cok_sol_exists point : forall o mean, cokriging km sn l v train targets k rows point o mean ->
  exists w, solves (observed km * k) (plus_diag (stacked_cov l (unobserved km) k (fun i => feature train (rows i))) (obs_noise sn v k)) w
     (stacked_cross l (unobserved km) k (fun i => feature train (rows i)) point o) /\
   mean = dot (observed km * k) w (fun p => at_ targets [rows (p mod k)%nat; (unobserved km + p / k)%nat]).
Proof. intros o mean (w & H & E). eauto. Qed.

Lemma choose3 (P : nat -> (nat -> R) -> Prop) : (forall o, (o < 3)%nat -> exists w, P o w) -> exists w, forall o, (o < 3)%nat -> P o (w o).
Proof.
  intros H. destruct (H 0%nat ltac:(lia)) as [a Ha]. destruct (H 1%nat ltac:(lia)) as [b Hb]. destruct (H 2%nat ltac:(lia)) as [c Hc].
  exists (fun o => match o with O => a | 1%nat => b | _ => c end). intros [|[|[|o]]] Ho; auto; lia.
Qed.

Lemma targets_turn p : (p < observed km * k)%nat ->
  at_ targets' [rows (p mod k)%nat; (unobserved km + p / k)%nat] =
  tstack g (unobserved km) (observed km) k (fun p => at_ targets [rows (p mod k)%nat; (unobserved km + p / k)%nat]) p.
Proof.
  intros Hp. destruct (pdiv (unobserved km) (observed km) k (shape_sr km) Hk p Hp) as (P1 & P2 & P3). destruct TT as [_ T].
  assert (B : (unobserved km <= unobserved km + p / k < 3)%nat) by (destruct (shape_sr km) as [[? ?]|[? ?]]; lia).
  rewrite T; [|apply RI; auto|apply B].
  rewrite (restrict g (unobserved km) (observed km) k (shape_sr km) Hk) by exact B. unfold tstack. apply rsum_ext. intros a Ha.
  destruct (dm (unobserved km) (observed km) k (shape_sr km) Hk a (p mod k)%nat P2) as [-> ->]. reflexivity.
Qed.

Section Point.
Variables (point point' : nat -> R).
Hypothesis PP : forall f, (f < 2)%nat -> point' f = move g point f.

Lemma cok_mean (mean mean' : nat -> R) :
  (forall o, (o < 3)%nat -> cokriging km sn l v train targets k rows point o (mean o)) ->
  (forall o, (o < 3)%nat -> cokriging km sn l v train' targets' k rows point' o (mean' o)) ->
  forall o, (o < 3)%nat -> mean' o = rsum 3 (fun o' => turn g o o' * mean o').
Proof.
  intros HM HM' o Ho. destruct (choose3 _ (fun o Ho => cok_sol_exists point o (mean o) (HM o Ho))) as [w HW]. clear HM. cbn beta in HW.
  destruct (HM' o Ho) as (w' & Hw' & ->).
  set (pt := fun i => feature train (rows i)) in *. set (pt' := fun i => feature train' (rows i)) in *.
  assert (PT : forall i f, (i < k)%nat -> (f < 2)%nat -> pt' i f = move g (pt i) f) by (intros; apply (proj2 MT); auto).
  pose proof (tweights_ok g (unobserved km) (observed km) k HR (shape_sr km) Hk l pt pt' (obs_noise sn v k) Hl PT
    (noise_turn g km sn v k SNF Hk) point point' PP w (fun o Ho => proj1 (HW o Ho)) o Ho) as TW.
  assert (NS : nonsingular (observed km * k) (plus_diag (stacked_cov l (unobserved km) k pt') (obs_noise sn v k))).
  { apply stacked_ns; auto. intros; apply obs_noise_pos; auto. }
  pose proof (solves_unique _ _ _ _ _ NS Hw' TW) as U.
  transitivity (dot (observed km * k) (tweights g (unobserved km) (observed km) k w o) (fun p => at_ targets' [rows (p mod k)%nat; (unobserved km + p / k)%nat])).
  { unfold dot. apply rsum_ext. intros p Hp. rewrite U by auto. reflexivity. }
  rewrite (tmean g (unobserved km) (observed km) k HR (shape_sr km) Hk w o (fun p => at_ targets [rows (p mod k)%nat; (unobserved km + p / k)%nat])).
  2:{ exact targets_turn. }
  apply rsum_ext. intros o' Ho'. f_equal. symmetry. apply HW; auto.
Qed.

Lemma cok_var scale (var var' : nat -> nat -> R) :
  (forall o, (o < 3)%nat -> cokriging_covariance km sn l v scale train k rows point o (var o)) ->
  (forall o, (o < 3)%nat -> cokriging_covariance km sn l v scale train' k rows point' o (var' o)) ->
  forall o p, (o < 3)%nat -> (p < 3)%nat -> var' o p = rsum 3 (fun o' => rsum 3 (fun p' => turn g o o' * turn g p p' * var o' p')).
Proof.
  intros HM HM' o p Ho Hp.
  set (pt := fun i => feature train (rows i)) in *. set (pt' := fun i => feature train' (rows i)) in *.
  destruct (choose3 (fun o w => solves (observed km * k) (plus_diag (stacked_cov l (unobserved km) k pt) (obs_noise sn v k)) w
     (stacked_cross l (unobserved km) k pt point o) /\ forall o', (o' < 3)%nat -> var o o' = scale *
      (shear_cov l (obs o) (obs o') point point - dot (observed km * k) w (stacked_cross l (unobserved km) k pt point o')))) as [w HW].
  { intros o' Ho'. exact (proj1 (HM o' Ho')). }
  destruct (HM' o Ho) as ((w' & Hw' & VV) & _). rewrite VV by auto. clear HM HM' VV.
  assert (PT : forall i f, (i < k)%nat -> (f < 2)%nat -> pt' i f = move g (pt i) f) by (intros; apply (proj2 MT); auto).
  pose proof (tweights_ok g (unobserved km) (observed km) k HR (shape_sr km) Hk l pt pt' (obs_noise sn v k) Hl PT
    (noise_turn g km sn v k SNF Hk) point point' PP w (fun o Ho => proj1 (HW o Ho)) o Ho) as TW.
  assert (NS : nonsingular (observed km * k) (plus_diag (stacked_cov l (unobserved km) k pt') (obs_noise sn v k))).
  { apply stacked_ns; auto. intros; apply obs_noise_pos; auto. }
  pose proof (solves_unique _ _ _ _ _ NS Hw' TW) as U.
  assert (ED : dot (observed km * k) w' (stacked_cross l (unobserved km) k pt' point' p) =
    dot (observed km * k) (tweights g (unobserved km) (observed km) k w o) (stacked_cross l (unobserved km) k pt' point' p)).
  { unfold dot. apply rsum_ext. intros q Hq. rewrite U by auto. reflexivity. }
  change (fun i => feature train' (rows i)) with pt'. rewrite ED. rewrite (tvar g (unobserved km) (observed km) k HR (shape_sr km) Hk l pt pt' Hl PT point point' PP w o p Ho Hp).
  rewrite (cov_ext (unobserved km) (observed km) k (shape_sr km) Hk l (obs o) (obs p) point' (move g point) point' (move g point)) by (intros; apply PP; auto).
  rewrite turn_cov by (auto; lra). rewrite <- rsum_minus, <- rsum_scal. apply rsum_ext. intros o' Ho'.
  rewrite <- rsum_minus, <- rsum_scal. apply rsum_ext. intros p' Hp'. rewrite (proj2 (HW o' Ho')) by auto. ring.
Qed.
End Point.
End Pred.

(** Moved inputs. *)
Lemma moved_inputs g h test test' train train' targets targets' ix nn m n b k : moved g test test' m -> moved g train train' n ->
  turned h targets targets' n -> shear_inputs test train targets ix nn m n b k -> shear_inputs test' train' targets' ix nn m n b k.
Proof. intros [M1 _] [M2 _] [T _] IN. destruct IN. constructor; auto. Qed.

Lemma sky_prediction ls : exact_solver ls -> forall g km sn s F test test' train train' targets targets' ix nn m n b k,
  rigid g -> shear_trainable km sn s F -> shear_inputs test train targets ix nn m n b k ->
  moved g test test' m -> moved g train train' n -> turned g targets targets' n ->
  exists mean var mean' var',
    shear_posterior ls km sn s F test train targets ix nn = Ok (mean, var) /\
    shear_posterior ls km sn s F test' train' targets' ix nn = Ok (mean', var') /\
    shape mean = [b; 3]%nat /\ shape mean' = [b; 3]%nat /\ shape var = [b; 3; 3]%nat /\ shape var' = [b; 3; 3]%nat /\
    forall x o, (x < b)%nat -> (o < 3)%nat ->
      at_ mean' [x; o] = rsum 3 (fun o' => turn g o o' * at_ mean [x; o']) /\
      forall p, (p < 3)%nat -> at_ var' [x; o; p] = rsum 3 (fun o' => rsum 3 (fun p' => turn g o o' * turn g p p' * at_ var [x; o'; p'])).
Proof.
  intros EX g km sn s F test test' train train' targets targets' ix nn m n b k HR TR IN M1 M2 T.
  pose proof (moved_inputs g g test test' train train' targets targets' ix nn m n b k M1 M2 T IN) as IN'.
  pose proof TR as (_ & (l & v & SV & Hl & Hv) & SNF).
  destruct (shear_posterior_ok ls EX km sn s F l v test train targets ix nn m n b k TR SV IN) as (mean & var & E1 & S1 & S2 & H1).
  destruct (shear_posterior_ok ls EX km sn s F l v test' train' targets' ix nn m n b k TR SV IN') as (mean' & var' & E2 & S1' & S2' & H2).
  exists mean, var, mean', var'. repeat (split; [assumption|]). intros x o Hx Ho.
  assert (Hk : (0 < k)%nat) by (destruct IN; lia).
  destruct (in_range_selects m (at_ ix [x])) as [r Hr]; [apply (si_ixok _ _ _ _ _ _ _ _ _ IN); auto|].
  assert (ROWS : exists rows, forall i, (i < k)%nat -> selects n (at_ nn [x; i]) (rows i)).
  { assert (G : forall j, (j <= k)%nat -> exists rows, forall i, (i < j)%nat -> selects n (at_ nn [x; i]) (rows i)).
    { induction j as [|j IH]; intros Hj; [exists (fun _ => O); intros; lia|].
      destruct IH as [rows Hrows]; [lia|]. destruct (in_range_selects n (at_ nn [x; j])) as [r' Hr'].
      { apply (si_nnok _ _ _ _ _ _ _ _ _ IN); auto. }
      exists (fun i => if (i =? j)%nat then r' else rows i). intros i Hi.
      destruct (Nat.eqb_spec i j); [subst; auto|apply Hrows; lia]. }
    exact (G k (Nat.le_refl k)). }
  destruct ROWS as [rows Hrows].
  assert (RI : forall i, (i < k)%nat -> (rows i < n)%nat) by (intros i Hi; destruct (Hrows i Hi); lia).
  assert (RM : (r < m)%nat) by (destruct Hr; lia).
  assert (PP : forall f, (f < 2)%nat -> feature test' r f = move g (feature test r) f) by (intros; apply (proj2 M1); auto).
  split.
  - apply (cok_mean g km sn l v k HR Hl Hv SNF Hk train train' targets targets' n rows M2 T RI (feature test r) (feature test' r) PP
      (fun o => at_ mean [x; o]) (fun o => at_ mean' [x; o])); auto.
    + intros o' Ho'. apply H1; auto.
    + intros o' Ho'. apply H2; auto.
  - intros p Hp.
    apply (cok_var g km sn l v k HR Hl Hv SNF Hk train train' n rows M2 RI (feature test r) (feature test' r) PP (f_var_scale F)
      (fun o o' => at_ var [x; o; o']) (fun o o' => at_ var' [x; o; o'])); auto.
    + intros o' Ho'. apply H1; auto.
    + intros o' Ho'. apply H2; auto.
Qed.
