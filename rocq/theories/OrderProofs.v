(** The order of the training rows does not matter to training. *)
From Coq Require Import Lia Lra.
From Verif Require Import Base BaseFacts NdModel NdFacts RSum LinAlgModel LinAlgSpec LinAlgFacts
  GPModel NoiseModel MuyGPSModel MuyGPSProofs GPSpec GPTheorems ScaleSpec ScaleProofs TensorModel TensorSpec TensorProofs
  HyperModel HyperSpec NamedModel NamedSpec NamedProofs KernelModel KernelSpec FlowModel FlowSpec FlowProofs PointwiseSpec LibSpec LibProofs
  LossModel LossSpec LossProofs ChassisModel ChassisSpec ChassisProofs ObjectiveProofs MultiModel DriverModel ClassifyModel WorkModel WorkSpec WorkProofs WorkLemmas
  NeighborsModel NeighborsSpec NeighborsProofs BatchProofs BatchLemmas
  TrainModel TrainSpec TrainProofs TrainProofs2 TrainProofs3 BestProofs SimSpec SimProofs UnitsSpec UnitsProofs UnitsProofs2 UnitsProofs3
  SimTrainSpec SimTrainProofs SimTrainProofs2 RelabelProofs OrderSpec.
Local Open Scope R_scope.

(** ** Matching two batches *)
Fixpoint pos (a : nat) (l : list nat) : nat := match l with [] => O | y :: r => if Nat.eqb y a then O else S (pos a r) end.
Lemma pos_ok a l : In a l -> (pos a l < List.length l)%nat /\ nth (pos a l) l O = a.
Proof.
  induction l as [|y r IH]; intros H; [contradiction|]. cbn. destruct (Nat.eqb_spec y a) as [->|NE]; [split; [lia|reflexivity]|].
  destruct H as [H|H]; [contradiction|]. destruct (IH H). split; [lia|auto].
Qed.
Lemma batch_match N b p idx idx' : perm_on N p -> List.length idx = b -> List.length idx' = b -> NoDup idx' ->
  (forall a, In a idx' -> (a < N)%nat) -> (forall a, (a < N)%nat -> In a idx' -> In (p a) idx) ->
  exists pi, perm_on b pi /\ forall x, (x < b)%nat -> nth (pi x) idx O = p (nth x idx' O).
Proof.
  intros [PB PI] L L' ND' RN SB. exists (fun x => pos (p (nth x idx' O)) idx).
  assert (OK : forall x, (x < b)%nat -> (pos (p (nth x idx' O)) idx < b)%nat /\ nth (pos (p (nth x idx' O)) idx) idx O = p (nth x idx' O)).
  { intros x Hx. rewrite <- L at 1. apply pos_ok. apply SB; [apply RN|]; apply nth_In; lia. }
  split; [split|].
  - intros x Hx. apply OK; auto.
  - intros x y Hx Hy E. destruct (OK x Hx) as [_ Ex]. destruct (OK y Hy) as [_ Ey]. rewrite E, Ey in Ex. symmetry in Ex.
    apply PI in Ex; [|apply RN; apply nth_In; lia|apply RN; apply nth_In; lia].
    apply (proj1 (NoDup_nth idx' O) ND' x y); auto; lia.
  - intros x Hx. apply OK; auto.
Qed.

(** ** The value of a batch *)
Lemma batch_loss_perm l kw b y mean var sc p : perm_on b p ->
  batch_loss l kw b (fun x => y (p x)) (fun x => mean (p x)) (fun x => var (p x)) sc = batch_loss l kw b y mean var sc.
Proof.
  intros PM. destruct l; cbn [batch_loss]; try reflexivity; apply (f_equal Some).
  - f_equal. exact (rsum_perm b p (fun x => (mean x - y x) ^ 2) PM).
  - exact (rsum_perm b p (fun x => lool_entry (mean x - y x) (sc * var x)) PM).
  - exact (rsum_perm b p (fun x => huber_entry (kw_or kw "boundary_scale" (3/2)) (y x - mean x)) PM).
  - exact (rsum_perm b p (fun x => looph_entry (kw_or kw "boundary_scale" 3) (mean x - y x) (sc * var x)) PM).
Qed.
Lemma ml_scale_perm b n A y s p : perm_on b p -> ml_scale b n A y s -> ml_scale b n (fun x => A (p x)) (fun x => y (p x)) s.
Proof.
  intros PM (q & (c & C & ->) & ->). exists (rsum b (fun x => dot n (y (p x)) (c (p x)))). split.
  - exists (fun x => c (p x)). split; [|reflexivity]. intros x Hx. apply C. apply PM; auto.
  - f_equal. symmetry. exact (rsum_perm b p (fun x => dot n (y x) (c x)) PM).
Qed.
Lemma batch_loss_y l kw b y y' mean var sc : (forall x, (x < b)%nat -> y' x = y x) -> batch_loss l kw b y' mean var sc = batch_loss l kw b y mean var sc.
Proof.
  intros Y. destruct l; cbn [batch_loss]; try reflexivity; apply (f_equal Some).
  - f_equal. apply rsum_ext. intros x Hx. rewrite Y by auto. reflexivity.
  - apply rsum_ext. intros x Hx. rewrite Y by auto. reflexivity.
  - apply rsum_ext. intros x Hx. rewrite Y by auto. reflexivity.
  - apply rsum_ext. intros x Hx. rewrite Y by auto. reflexivity.
Qed.
Lemma solves_ext n A A' w k k' : (forall i j, (i < n)%nat -> (j < n)%nat -> A' i j = A i j) -> (forall i, (i < n)%nat -> k' i = k i) ->
  solves n A w k -> solves n A' w k'.
Proof. intros HA HK S i Hi. rewrite HK by auto. rewrite <- (S i Hi). apply rsum_ext. intros j Hj. rewrite HA by auto. reflexivity. Qed.

Section Value.
Variables (gamma : R -> R) (kv : R -> R -> R).

Lemma uniform_at m x y i : uniform_noise m -> noise_at m None x i = noise_at m None y i.
Proof. intros [->|(v & ->)]; reflexivity. Qed.


Lemma uniform_pos m c : uniform_noise m -> forall x y i j, (c < noise_at m None x i -> c < noise_at m None y j).
Proof. intros [->|(v & ->)]; cbn; auto. Qed.

(** Both runs look at the same rows of the original data. *)
Section Same.
Variables (train train' targets targets' : nd R) (N : nat) (p : nat -> nat).
Hypothesis RO : reordered train train' targets targets' N [] p.
Variables (b n : nat) (c c' : nat -> nat) (q q' : nat -> nat -> nat) (pi : nat -> nat).
Hypothesis PI : perm_on b pi.
Hypothesis HC : forall x, (x < b)%nat -> (c' x < N)%nat /\ c (pi x) = p (c' x).
Hypothesis HQ : forall x j, (x < b)%nat -> (j < n)%nat -> (q' x j < N)%nat /\ q (pi x) j = p (q' x j).

Lemma order_features : feature_count train' = feature_count train.
Proof. destruct RO as (_ & S & _). unfold feature_count. rewrite S. reflexivity. Qed.

Lemma kcov_order k i j : (forall v v', (forall f, (f < feature_count train)%nat -> v f = v' f) -> k v = k v') -> (i < N)%nat -> (j < N)%nat ->
  kcov k train' train' i j = kcov k train train (p i) (p j).
Proof.
  intros LC Hi Hj. destruct RO as (_ & _ & _ & RR). unfold kcov. apply LC. intros f Hf.
  rewrite (proj1 (RR i Hi) f Hf), (proj1 (RR j Hj) f Hf). reflexivity.
Qed.
Lemma nbr_order k m x i j : (forall v v', (forall f, (f < feature_count train)%nat -> v f = v' f) -> k v = k v') -> uniform_noise m ->
  (x < b)%nat -> (i < n)%nat -> (j < n)%nat -> nbr_matrix k m train' q' x i j = nbr_matrix k m train q (pi x) i j.
Proof.
  intros LC UN Hx Hi Hj. destruct (HQ x i Hx Hi) as [A E]. destruct (HQ x j Hx Hj) as [B E'].
  unfold nbr_matrix, plus_diag. rewrite E, E', kcov_order by auto. destruct UN as [->|(v & ->)]; reflexivity.
Qed.
Lemma target_order a : (a < N)%nat -> at_ targets' [a] = at_ targets [p a].
Proof. intros Ha. destruct RO as (_ & _ & _ & RR). apply (proj2 (RR a Ha)). apply inb_nil. Qed.

Lemma scale_order F k m sc : (forall v v', (forall f, (f < feature_count train)%nat -> v f = v' f) -> k v = k v') -> uniform_noise m ->
  scale_used F k m train targets b n q sc -> scale_used F k m train' targets' b n q' sc.
Proof.
  intros LC UN. unfold scale_used. destruct (f_kind F) as [|it|mm it]; auto. intros SC.
  pose proof (ml_scale_perm b n _ _ sc pi PI SC) as (t & (w & W & ->) & ->).
  exists (rsum b (fun x => dot n (fun i => at_ targets [q (pi x) i]) (w x))). split; [|reflexivity].
  exists w. split.
  - intros x Hx. refine (solves_ext n _ _ _ _ _ _ _ (W x Hx)).
    + intros i j Hi Hj. apply nbr_order; auto.
    + intros i Hi. destruct (HQ x i Hx Hi) as [A E]. cbn beta. rewrite E. apply target_order; auto.
  - apply rsum_ext. intros x Hx. unfold dot. apply rsum_ext. intros i Hi. destruct (HQ x i Hx Hi) as [A E]. rewrite E, target_order by auto. reflexivity.
Qed.

Lemma loo_order s F l kw K v : full_lib s F = Some K -> lk_ok K (feature_count train) (reals s) [] -> uniform_noise (full_noise s F) ->
  loo_value gamma kv s F l kw train targets b n c q v -> loo_value gamma kv s F l kw train' targets' b n c' q' v.
Proof.
  intros L OK UN (K0 & mean & var & sc & Lo & EL & P & VP & SU & BL & ->). rewrite L in EL. injection EL as <-.
  destruct (lk_pointwise gamma kv K _ _ _ OK) as [LC _]. set (k := lk_cov gamma kv K (feature_count train) (reals s) []) in *.
  exists K, (fun x => mean (pi x)), (fun x => var (pi x)), sc, Lo. rewrite order_features. fold k.
  split; [exact L|]. split.
  { intros x Hx. destruct (P (pi x) (proj1 PI x Hx)) as ((w & W & E) & w' & W' & E').
    assert (KE : forall j, (j < n)%nat -> kcov k train' train' (c' x) (q' x j) = kcov k train train (c (pi x)) (q (pi x) j)).
    { intros j Hj. destruct (HC x Hx) as [A ->]. destruct (HQ x j Hx Hj) as [B ->]. apply kcov_order; auto. }
    assert (AE : forall i j, (i < n)%nat -> (j < n)%nat -> nbr_matrix k (full_noise s F) train' q' x i j = nbr_matrix k (full_noise s F) train q (pi x) i j)
      by (intros; apply nbr_order; auto).
    split.
    - exists w. split; [exact (solves_ext n _ _ _ _ _ AE KE W)|]. rewrite E. unfold dot. apply rsum_ext. intros j Hj.
      destruct (HQ x j Hx Hj) as [B ->]. rewrite target_order by auto. reflexivity.
    - exists w'. split; [exact (solves_ext n _ _ _ _ _ AE KE W')|]. rewrite E'. unfold dot. f_equal. apply rsum_ext. intros j Hj. rewrite KE by auto. reflexivity. }
  split; [intros x Hx; apply VP; apply PI; auto|]. split; [apply scale_order; auto|]. split; [|reflexivity].
  rewrite <- BL, <- (batch_loss_perm l kw b (fun x => at_ targets [c x]) mean var sc pi PI). apply batch_loss_y.
  intros x Hx. destruct (HC x Hx) as [A ->]. apply target_order; auto.
Qed.

Lemma well_posed_order m : uniform_noise m -> loo_well_posed m train b n c q -> loo_well_posed m train' b n c' q'.
Proof.
  intros UN WP x Hx. pose proof RO as (_ & _ & _ & RR).
  destruct (WP (pi x) (proj1 PI x Hx)) as [P|(P & D & D2)]; [left|right; split; [|split]].
  - intros i Hi. rewrite (uniform_at m x (pi x)) by auto. auto.
  - intros i Hi. rewrite (uniform_at m x (pi x)) by auto. auto.
  - intros i j Hi Hj NE. destruct (D i j Hi Hj NE) as (f & Hf & X). exists f. rewrite order_features. split; [auto|].
    destruct (HQ x i Hx Hi) as [A E]. destruct (HQ x j Hx Hj) as [B E']. rewrite E, E' in X.
    rewrite (proj1 (RR _ A) f Hf), (proj1 (RR _ B) f Hf). exact X.
  - intros i Hi. destruct (D2 i Hi) as (f & Hf & X). exists f. rewrite order_features. split; [auto|].
    destruct (HQ x i Hx Hi) as [A E]. destruct (HC x Hx) as [B E']. rewrite E, E' in X.
    rewrite (proj1 (RR _ A) f Hf), (proj1 (RR _ B) f Hf). exact X.
Qed.
End Same.
End Value.
