(** Lemmas for C115: training. *)
From Coq Require Import Lia Lra.
From Verif Require Import Base BaseFacts NdModel NdFacts RSum LinAlgModel LinAlgSpec LinAlgFacts
  GPModel NoiseModel MuyGPSModel MuyGPSProofs GPSpec GPTheorems ScaleSpec ScaleProofs TensorModel TensorSpec TensorProofs
  HyperModel HyperSpec NamedModel NamedSpec NamedProofs KernelModel KernelSpec KernelLemmas FlowModel FlowSpec FlowProofs PointwiseSpec LibSpec LibProofs
  LossModel LossSpec LossProofs ChassisModel ChassisSpec ChassisProofs ObjectiveProofs MultiModel DriverModel ClassifyModel WorkModel WorkSpec WorkProofs WorkLemmas
  NeighborsModel NeighborsSpec NeighborsProofs BatchProofs BatchLemmas
  TrainModel TrainSpec TrainProofs TrainProofs2 TrainProofs3 BestProofs SimSpec SimProofs UnitsSpec UnitsProofs UnitsProofs2 UnitsProofs3 SimTrainSpec SimTrainProofs
  FairSpec SimplerSpec SimplerProofs SimplerProofs2 ExpoSpec ExpoProofs.
Local Open Scope R_scope.

Lemma ex_max N (P : nat -> Prop) (f : nat -> R) : (exists c, (c < N)%nat /\ P c) ->
  exists a, (a < N)%nat /\ P a /\ forall c, (c < N)%nat -> P c -> f c <= f a.
Proof.
  induction N as [|N IH]; intros (c & Hc & Pc); [lia|].
  destruct (Classical_Prop.classic (exists c, (c < N)%nat /\ P c)) as [EXN|NO].
  - destruct (IH EXN) as (a & A1 & A2 & A3). destruct (Classical_Prop.classic (P N /\ f a < f N)) as [(PN & L)|NL].
    + exists N. split; [lia|]. split; [exact PN|]. intros d D1 D2. destruct (Nat.eq_dec d N) as [->|]; [lra|]. assert (f d <= f a) by (apply A3; [lia|exact D2]). lra.
    + exists a. split; [lia|]. split; [exact A2|]. intros d D1 D2. destruct (Nat.eq_dec d N) as [->|]; [|apply A3; [lia|exact D2]].
      apply Rnot_lt_le. intros L. apply NL. auto.
  - assert (c = N) as ->. { destruct (Nat.eq_dec c N); auto. exfalso. apply NO. exists c. split; [lia|exact Pc]. }
    exists N. split; [lia|]. split; [exact Pc|]. intros d D1 D2. destruct (Nat.eq_dec d N) as [->|]; [lra|]. exfalso. apply NO. exists d. split; [lia|exact D2].
Qed.

(** A row nearer than any neighbour on its side is a neighbour. *)
Lemma other_in train N c n q a j : feature_count train = 1%nat -> distinct_rows train N (fun i => i) -> nearest_others train N c n q ->
  (a < N)%nat -> a <> c -> (j < n)%nat -> ((pos train c - pos train a) ^ 2 < (pos train c - pos train (q j)) ^ 2 \/ pos train a = pos train (q j)) ->
  exists j, (j < n)%nat /\ q j = a.
Proof.
  intros F1 DR (QB & QI & QS & OUT) Ha NC Hj HS.
  destruct (Classical_Prop.classic (exists j, (j < n)%nat /\ q j = a)) as [E|NE]; [exact E|]. exfalso.
  assert (NO : forall i, (i < n)%nat -> q i <> a) by (intros i Hi E; apply NE; eauto).
  pose proof (OUT a Ha NC NO j Hj) as D. rewrite !row_dist_1 in D by exact F1.
  destruct HS as [L|E]; [lra|].
  destruct (DR (q j) a (proj1 (QB j Hj)) Ha (NO j Hj)) as (f & Hf & NF). rewrite F1 in Hf. assert (f = O) as -> by lia. apply NF. symmetry. exact E.
Qed.

Section P.
Variables (train : nd R) (N c : nat) (l : R).
Hypothesis F1 : feature_count train = 1%nat.
Hypothesis DR : distinct_rows train N (fun i => i).
Hypothesis HC : (c < N)%nat.
Hypothesis Hl : 0 < l.

Lemma pos_inj a b : (a < N)%nat -> (b < N)%nat -> pos train a = pos train b -> a = b.
Proof.
  intros Ha Hb E. destruct (Nat.eq_dec a b) as [|NE]; [assumption|]. exfalso. destruct (DR a b Ha Hb NE) as (f & Hf & NF).
  rewrite F1 in Hf. assert (f = O) as -> by lia. apply NF. exact E.
Qed.

Let sys (n : nat) (q : nat -> nat) := fun i j : nat => ek l (pos train (q i : nat)) (pos train (q j)).
Let rhs (q : nat -> nat) := fun i : nat => ek l (pos train c) (pos train (q i : nat)).

(** The weights lie on the same rows, with the same values, whichever neighbours are given. *)
Lemma screened n q n' q' : (0 < n)%nat -> (0 < n')%nat -> nearest_others train N c n q -> nearest_others train N c n' q' ->
  (loo_straddled train n c q /\ loo_straddled train n' c q' \/ extreme_row train N c) ->
  exists u v, solves n (sys n q) u (rhs q) /\ solves n' (sys n' q') v (rhs q') /\
    forall y : nat -> R, dot n u (fun j => y (q j)) = dot n' v (fun j => y (q' j)).
Proof.
  intros Hn Hn' NB NB' [[((jl & Hjl & Pl) & (jr & Hjr & Pr)) ((jl' & Hjl' & Pl') & (jr' & Hjr' & Pr'))]|[LAST|FIRST]].
  - pose proof (proj1 NB) as QB. pose proof (proj1 NB') as QB'.
    destruct (ex_max N (fun a => pos train a < pos train c) (pos train)) as (a & A1 & A2 & A3); [exists (q jl); split; [apply QB; exact Hjl|exact Pl]|].
    destruct (ex_max N (fun a => pos train c < pos train a) (fun a => - pos train a)) as (b & B1 & B2 & B3); [exists (q jr); split; [apply QB; exact Hjr|exact Pr]|].
    assert (NAC : a <> c) by (intros ->; lra). assert (NBC : b <> c) by (intros ->; lra).
    assert (IL : forall m p, nearest_others train N c m p -> (exists j, (j < m)%nat /\ pos train (p j) < pos train c) -> exists j, (j < m)%nat /\ p j = a).
    { intros m p NO (j & Hj & Pj). apply (other_in train N c m p a j); auto. pose proof (A3 (p j) (proj1 (proj1 NO j Hj)) Pj) as L.
      destruct (Req_dec (pos train a) (pos train (p j))) as [Q|Q]; [right; exact Q|left].
      assert (0 < (pos train a - pos train (p j)) * (pos train c - pos train a + (pos train c - pos train (p j)))) by (apply Rmult_lt_0_compat; lra). lra. }
    assert (IR : forall m p, nearest_others train N c m p -> (exists j, (j < m)%nat /\ pos train c < pos train (p j)) -> exists j, (j < m)%nat /\ p j = b).
    { intros m p NO (j & Hj & Pj). apply (other_in train N c m p b j); auto. pose proof (B3 (p j) (proj1 (proj1 NO j Hj)) Pj) as L. cbn beta in L.
      destruct (Req_dec (pos train b) (pos train (p j))) as [Q|Q]; [right; exact Q|left].
      assert (0 < (pos train (p j) - pos train b) * (pos train b - pos train c + (pos train (p j) - pos train c))) by (apply Rmult_lt_0_compat; lra). lra. }
    assert (SOL : forall m p ia ib, nearest_others train N c m p -> (ia < m)%nat -> p ia = a -> (ib < m)%nat -> p ib = b ->
       solves m (sys m p) (fun j => delta j ia * (sinh ((pos train b - pos train c) / l) / sinh ((pos train b - pos train a) / l)) +
         delta j ib * (sinh ((pos train c - pos train a) / l) / sinh ((pos train b - pos train a) / l))) (rhs p)).
    { intros m p ia ib NO Hia Ea Hib Eb.
      assert (HP : forall i, (i < m)%nat -> pos train (p i) <= pos train (p ia) \/ pos train (p ib) <= pos train (p i)).
      { intros i Hi. rewrite Ea, Eb. destruct (proj1 NO i Hi) as (B & NC).
        destruct (Rlt_dec (pos train (p i)) (pos train c)) as [L|L]; [left; apply A3; auto|right].
        assert (pos train (p i) <> pos train c) by (intros Q; apply NC, pos_inj; auto).
        assert (- pos train (p i) <= - pos train b) by (apply (B3 (p i)); auto; lra). lra. }
      assert (HZ : pos train (p ia) <= pos train c < pos train (p ib)) by (rewrite Ea, Eb; lra).
      pose proof (two_points m l (fun i => pos train (p i)) (pos train c) ia ib Hl Hia Hib HZ HP) as S0. cbn beta in S0. rewrite !Ea, !Eb in S0. exact S0. }
    destruct (IL n q NB) as (ia & Hia & Ea); [eauto|]. destruct (IR n q NB) as (ib & Hib & Eb); [eauto|].
    destruct (IL n' q' NB') as (ia' & Hia' & Ea'); [eauto|]. destruct (IR n' q' NB') as (ib' & Hib' & Eb'); [eauto|].
    eexists. eexists. split; [apply (SOL n q ia ib); auto|]. split; [apply (SOL n' q' ia' ib'); auto|].
    intros y. rewrite !dot_delta2 by assumption. rewrite Ea, Eb, Ea', Eb'. reflexivity.
  - pose proof (proj1 NB) as QB. pose proof (proj1 NB') as QB'.
    destruct (ex_max N (fun a => a <> c) (pos train)) as (a & A1 & A2 & A3); [exists (q O); apply QB; exact Hn|].
    assert (IL : forall m p, (0 < m)%nat -> nearest_others train N c m p -> exists j, (j < m)%nat /\ p j = a).
    { intros m p Hm NO. apply (other_in train N c m p a O); auto. destruct (proj1 NO O Hm) as (B & NC). pose proof (A3 _ B NC) as L. pose proof (LAST a A1).
      destruct (Req_dec (pos train a) (pos train (p O))) as [Q|Q]; [right; exact Q|left].
      assert (pos train a <> pos train c) by (intros Q'; apply A2, pos_inj; auto).
      assert (0 < (pos train a - pos train (p O)) * (pos train c - pos train a + (pos train c - pos train (p O)))) by (apply Rmult_lt_0_compat; lra). lra. }
    assert (SOL : forall m p ia, nearest_others train N c m p -> (ia < m)%nat -> p ia = a ->
       solves m (sys m p) (fun j => delta j ia * ek l (pos train c) (pos train a)) (rhs p)).
    { intros m p ia NO Hia Ea.
      assert (HP : forall i, (i < m)%nat -> pos train (p i) <= pos train (p ia)) by (intros i Hi; rewrite Ea; apply A3; apply (proj1 NO i Hi)).
      assert (HZ : pos train (p ia) <= pos train c) by (rewrite Ea; apply LAST; exact A1).
      pose proof (one_point m l (fun i => pos train (p i)) (pos train c) ia Hia HP HZ) as S0. cbn beta in S0. rewrite Ea in S0. exact S0. }
    destruct (IL n q Hn NB) as (ia & Hia & Ea). destruct (IL n' q' Hn' NB') as (ia' & Hia' & Ea').
    eexists. eexists. split; [apply (SOL n q ia); auto|]. split; [apply (SOL n' q' ia'); auto|].
    intros y. rewrite !dot_delta by assumption. rewrite Ea, Ea'. reflexivity.
  - pose proof (proj1 NB) as QB. pose proof (proj1 NB') as QB'.
    destruct (ex_max N (fun a => a <> c) (fun a => - pos train a)) as (a & A1 & A2 & A3); [exists (q O); apply QB; exact Hn|].
    assert (IL : forall m p, (0 < m)%nat -> nearest_others train N c m p -> exists j, (j < m)%nat /\ p j = a).
    { intros m p Hm NO. apply (other_in train N c m p a O); auto. destruct (proj1 NO O Hm) as (B & NC). pose proof (A3 _ B NC) as L. pose proof (FIRST a A1). cbn beta in L.
      destruct (Req_dec (pos train a) (pos train (p O))) as [Q|Q]; [right; exact Q|left].
      assert (pos train a <> pos train c) by (intros Q'; apply A2, pos_inj; auto).
      assert (0 < (pos train (p O) - pos train a) * (pos train a - pos train c + (pos train (p O) - pos train c))) by (apply Rmult_lt_0_compat; lra). lra. }
    assert (SOL : forall m p ia, nearest_others train N c m p -> (ia < m)%nat -> p ia = a ->
       solves m (sys m p) (fun j => delta j ia * ek l (pos train c) (pos train a)) (rhs p)).
    { intros m p ia NO Hia Ea.
      assert (HP : forall i, (i < m)%nat -> pos train (p ia) <= pos train (p i)).
      { intros i Hi. rewrite Ea. destruct (proj1 NO i Hi) as (B & NC). pose proof (A3 _ B NC). cbn beta in *. lra. }
      assert (HZ : pos train c <= pos train (p ia)) by (rewrite Ea; apply FIRST; exact A1).
      pose proof (one_point' m l (fun i => pos train (p i)) (pos train c) ia Hia HP HZ) as S0. cbn beta in S0. rewrite Ea in S0. exact S0. }
    destruct (IL n q Hn NB) as (ia & Hia & Ea). destruct (IL n' q' Hn' NB') as (ia' & Hia' & Ea').
    eexists. eexists. split; [apply (SOL n q ia); auto|]. split; [apply (SOL n' q' ia'); auto|].
    intros y. rewrite !dot_delta by assumption. rewrite Ea, Ea'. reflexivity.
Qed.
End P.

Section C.
Variables (gamma : R -> R) (kv : R -> R -> R).
Variable ls : lsolver.
Hypothesis EX : exact_solver ls.
Variable sld : nat -> mat -> R * R.
Variable eps : R.

Lemma expo_training s F names x0 bounds train targets N b c n q ix nn t n' q' ix' nn' t' l kw draws draws' x :
  training s F names x0 bounds train N b n c q -> training s F names x0 bounds train N b n' c q' ->
  batch_ok train targets ix nn N b n c q -> batch_ok train targets ix' nn' N b n' c q' -> loss_kw_ok kw -> scores_vectors l ->
  full_train_tensors F ix nn train targets = Ok t -> full_train_tensors F ix' nn' train targets = Ok t' ->
  f_kind F = FixedScale -> family s F = Half -> noiseless s F -> feature_count train = 1%nat -> distinct_rows train N (fun i => i) ->
  (forall y, (y < b)%nat -> nearest_others train N (c y) n (q y) /\ nearest_others train N (c y) n' (q' y) /\
     (loo_straddled train n (c y) (q y) /\ loo_straddled train n' (c y) (q' y) \/ extreme_row train N (c y))) ->
  in_box x bounds ->
  exists v,
    obj_fn ls sld eps gamma kv s F l kw None draws (tr_pair t) (tr_cross t) (tr_nn_targets t) (tr_targets t) (combine names x) = Ok v /\
    obj_fn ls sld eps gamma kv s F l kw None draws' (tr_pair t') (tr_cross t') (tr_nn_targets t') (tr_targets t') (combine names x) = Ok v.
Proof.
  intros [MO BO PB LF EO SK TR WP _] [_ _ _ _ _ _ TR2 WP2 _] BK BK2 KW LS Et Et2 FK FH NZ F1 DR NB BX.
  destruct (candidate_value ls EX sld eps gamma kv s F l kw draws train targets ix nn N b n c q names x0 bounds t
    MO BO PB LF EO SK TR WP BK KW LS Et x BX) as (s1 & F1' & v & E1 & O1 & V1 & LV1 & TR1 & WP1).
  destruct (candidate_value ls EX sld eps gamma kv s F l kw draws' train targets ix' nn' N b n' c q' names x0 bounds t'
    MO BO PB LF EO SK TR2 WP2 BK2 KW LS Et2 x BX) as (s3 & F3 & v' & E3 & O3 & V3 & LV3 & TR3 & WP3).
  assert (s3 = s1) as -> by congruence. assert (F3 = F1') as -> by congruence.
  exists v. split; [exact V1|]. rewrite V3. f_equal.
  destruct (candidate_model gamma kv s F names x0 bounds x s1 F1' train b n MO LF EO BX E1 O1 TR TR1) as (K & L1 & C1 & _ & N1).
  assert (Z1 : forall y i, noise_at (full_noise s1 F1') None y i = 0).
  { intros y i. apply N1. unfold noise_value, value_at. destruct NZ as (z & -> & PF & PV). rewrite PF. exact PV. }
  destruct O1 as (_ & _ & _ & _ & _ & KI1 & SC1).
  assert (NS : forall y, (y < b)%nat -> nonsingular n (nbr_matrix (lk_cov gamma kv K (feature_count train) (reals s1) []) (full_noise s1 F1') train q y)).
  { intros y Hy. destruct TR1 as (_ & (K1 & L1' & OK1) & _). assert (K1 = K) as -> by congruence. revert y Hy. apply well_posed_ns; auto. apply (loo_wp _ _ _ _ c). exact WP1. }
  assert (NS' : forall y, (y < b)%nat -> nonsingular n' (nbr_matrix (lk_cov gamma kv K (feature_count train) (reals s1) []) (full_noise s1 F1') train q' y)).
  { intros y Hy. destruct TR1 as (_ & (K1 & L1' & OK1) & _). assert (K1 = K) as -> by congruence. revert y Hy. apply well_posed_ns; auto. apply (loo_wp _ _ _ _ c). exact WP3. }
  assert (LP : 0 < scale_of (lk_def K) (reals s1) [] O).
  { destruct TR1 as (_ & (K1 & L1' & (_ & _ & PS & _)) & _). assert (K1 = K) as -> by congruence. apply PS. rewrite F1. lia. }
  set (len := scale_of (lk_def K) (reals s1) [] O) in *.
  assert (KC : forall i j, kcov (lk_cov gamma kv K (feature_count train) (reals s1) []) train train i j = ek len (pos train i) (pos train j)).
  { intros i j. unfold kcov. rewrite C1, FH. cbn [matern_value]. unfold matern_half, ek. f_equal. f_equal. unfold scaled_sqdist. rewrite F1. cbn [rsum]. fold len.
    assert (Q : 0 + ((feature train i 0 - feature train j 0 - 0) / len) ^ 2 = Rsqr ((pos train i - pos train j) / len)) by (unfold pos, Rsqr, Rdiv; ring).
    etransitivity; [exact (f_equal sqrt Q)|]. rewrite sqrt_Rsqr_abs. unfold Rdiv. rewrite Rabs_mult, (Rabs_pos_eq (/ len)); [reflexivity|]. left. apply Rinv_0_lt_compat. exact LP. }
  destruct LV1 as (K0 & mean & var & sc & Lo & EL & P & VP & SU & BL & ->). destruct LV3 as (K0' & mean' & var' & sc' & Lo' & EL' & P' & VP' & SU' & BL' & ->).
  assert (K0 = K) as -> by congruence. assert (K0' = K) as -> by congruence.
  assert (Hn : (0 < n)%nat) by apply BK. assert (Hn' : (0 < n')%nat) by apply BK2.
  assert (EQ : forall y, (y < b)%nat -> mean' y = mean y /\ var' y = var y).
  { intros y Hy. destruct (NB y Hy) as (NO & NO' & ST).
    assert (Hc : (c y < N)%nat) by (destruct BK as (_ & _ & _ & _ & _ & HC & _); apply HC; exact Hy).
    destruct (screened train N (c y) len F1 DR Hc LP n (q y) n' (q' y) Hn Hn' NO NO' ST) as (u & w & SU1 & SU2 & DE).
    destruct (P y Hy) as (M1 & w1 & W1 & VE1). destruct (P' y Hy) as (M2 & w2 & W2 & VE2).
    assert (AE : forall i j, (i < n)%nat -> (j < n)%nat -> nbr_matrix (lk_cov gamma kv K (feature_count train) (reals s1) []) (full_noise s1 F1') train q y i j
       = ek len (pos train (q y i)) (pos train (q y j))).
    { intros i j _ _. unfold nbr_matrix, plus_diag. rewrite Z1, KC. destruct (i =? j)%nat; ring. }
    assert (AE' : forall i j, (i < n')%nat -> (j < n')%nat -> nbr_matrix (lk_cov gamma kv K (feature_count train) (reals s1) []) (full_noise s1 F1') train q' y i j
       = ek len (pos train (q' y i)) (pos train (q' y j))).
    { intros i j _ _. unfold nbr_matrix, plus_diag. rewrite Z1, KC. destruct (i =? j)%nat; ring. }
    split.
    - assert (R1 : mean y = dot n u (fun j => at_ targets [q y j])).
      { refine (kriging_det n _ _ _ _ _ _ _ _ (NS y Hy) AE (fun j _ => KC (c y) (q y j)) (fun j _ => eq_refl) M1 (ex_intro _ u (conj SU1 eq_refl))). }
      assert (R2 : mean' y = dot n' w (fun j => at_ targets [q' y j])).
      { refine (kriging_det n' _ _ _ _ _ _ _ _ (NS' y Hy) AE' (fun j _ => KC (c y) (q' y j)) (fun j _ => eq_refl) M2 (ex_intro _ w (conj SU2 eq_refl))). }
      rewrite R1, R2. symmetry. apply (DE (fun a => at_ targets [a])).
    - rewrite VE1, VE2. f_equal.
      assert (R1 : dot n w1 (fun j => kcov (lk_cov gamma kv K (feature_count train) (reals s1) []) train train (c y) (q y j)) = dot n u (fun j => ek len (pos train (c y)) (pos train (q y j)))).
      { refine (kriging_det n _ _ _ _ _ _ _ _ (NS y Hy) AE (fun j _ => KC (c y) (q y j)) (fun j _ => KC (c y) (q y j)) (ex_intro _ w1 (conj W1 eq_refl)) (ex_intro _ u (conj SU1 eq_refl))). }
      assert (R2 : dot n' w2 (fun j => kcov (lk_cov gamma kv K (feature_count train) (reals s1) []) train train (c y) (q' y j)) = dot n' w (fun j => ek len (pos train (c y)) (pos train (q' y j)))).
      { refine (kriging_det n' _ _ _ _ _ _ _ _ (NS' y Hy) AE' (fun j _ => KC (c y) (q' y j)) (fun j _ => KC (c y) (q' y j)) (ex_intro _ w2 (conj W2 eq_refl)) (ex_intro _ w (conj SU2 eq_refl))). }
      rewrite R1, R2. symmetry. apply (DE (fun a => ek len (pos train (c y)) (pos train a))). }
  assert (sc' = sc) as ->. { unfold scale_used in SU, SU'. rewrite KI1, FK in SU, SU'. congruence. }
  rewrite (batch_loss_ext l kw b _ mean var mean' var' sc) in BL'; [congruence|intros; apply EQ; assumption|intros; apply EQ; assumption].
Qed.
End C.
