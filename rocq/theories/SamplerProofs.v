(** Lemmas for C109. *)
From Coq Require Import Lia Lra Permutation Sorted.
From Flocq Require Import Core.
From Verif Require Import Base BaseFacts NdModel NdFacts RSum HyperModel NamedModel NamedSpec LinAlgModel LinAlgSpec LinAlgFacts
  NoiseModel GPSpec TensorModel TensorSpec KernelModel KernelSpec FlowSpec LibSpec LibProofs WorkSpec MpiModel ChunkProofs
  BestSpec BestProofs CalibSpec BenchModel BenchSpec BenchProofs SamplerModel SamplerSpec.
Local Open Scope R_scope.

(** ** int(n * ratio) *)
Lemma format_int k : (Z.abs k <= 2 ^ 53)%Z -> generic_format radix2 (FLX_exp 53) (IZR k).
Proof.
  intros H. destruct (Z.eq_dec (Z.abs k) (2 ^ 53)) as [E|N].
  - apply generic_format_FLX. exists (Float radix2 (Z.sgn k) 53); [|cbn [Fnum]; destruct k; cbn; lia].
    unfold F2R. cbn [Fnum Fexp]. change (bpow radix2 53) with (IZR (2 ^ 53)). rewrite <- mult_IZR. f_equal. destruct k; cbn [Z.sgn Z.abs] in *; lia.
  - apply generic_format_FLX. exists (Float radix2 k 0); [unfold F2R; cbn; lra|]. cbn [Fnum]. change (Zpower radix2 53) with (2 ^ 53)%Z. lia.
Qed.
Lemma round_int k : (Z.abs k <= 2 ^ 53)%Z -> round radix2 (FLX_exp 53) ZnearestE (IZR k) = IZR k.
Proof. intros H. apply round_generic; [apply valid_rnd_N|apply format_int; exact H]. Qed.
Lemma round_mono x y : x <= y -> round radix2 (FLX_exp 53) ZnearestE x <= round radix2 (FLX_exp 53) ZnearestE y.
Proof. apply round_le; [apply FLX_exp_valid; reflexivity|apply valid_rnd_N]. Qed.

Lemma int_mul_integer n ratio k : INR n * ratio = IZR k -> (Z.abs k <= 2 ^ 53)%Z -> int_mul n ratio = k.
Proof. intros E H. unfold int_mul. rewrite E, round_int by auto. apply Ztrunc_IZR. Qed.

Lemma int_mul_bounds n ratio : 0 <= INR n * ratio < IZR (2 ^ 53) ->
  IZR (int_mul n ratio) - 1 <= INR n * ratio < IZR (int_mul n ratio) + 1.
Proof.
  intros [P Q]. unfold int_mul. set (q := INR n * ratio) in *. set (k := Zfloor q).
  assert (K1 : IZR k <= q) by apply Zfloor_lb. assert (K2 : q < IZR k + 1) by apply Zfloor_ub.
  assert (K0 : (0 <= k)%Z) by (apply Zfloor_lub; exact P).
  assert (K3 : (k < 2 ^ 53)%Z) by (apply lt_IZR; lra).
  set (r := round radix2 (FLX_exp 53) ZnearestE q).
  assert (R1 : IZR k <= r). { rewrite <- (round_int k) by lia. apply round_mono. exact K1. }
  assert (R2 : r <= IZR (k + 1)). { rewrite <- (round_int (k + 1)) by lia. apply round_mono. rewrite plus_IZR. lra. }
  assert (R0 : 0 <= r) by (pose proof (IZR_le 0 k K0); lra).
  rewrite Ztrunc_floor by exact R0.
  assert (F1 : (k <= Zfloor r)%Z) by (apply Zfloor_lub; exact R1).
  assert (F2 : (Zfloor r <= k + 1)%Z). { apply le_IZR. pose proof (Zfloor_lb r). lra. }
  apply IZR_le in F1. apply IZR_le in F2. rewrite plus_IZR in F2. lra.
Qed.

(** ** Masks *)
Lemma seq_sorted s n : StronglySorted lt (seq s n).
Proof.
  revert s. induction n as [|n IH]; intros s; cbn; constructor; auto. apply Forall_forall. intros i H. apply in_seq in H. lia.
Qed.
Lemma filter_sorted (f : nat -> bool) l : StronglySorted lt l -> StronglySorted lt (filter f l).
Proof.
  induction 1 as [|a l SL IH FA]; cbn; [constructor|]. destruct (f a); auto. constructor; auto.
  apply Forall_forall. intros i H. apply filter_In in H. rewrite Forall_forall in FA. apply FA. tauto.
Qed.
Lemma sorted_nodup l : StronglySorted lt l -> NoDup l.
Proof.
  induction 1 as [|a l SL IH FA]; constructor; auto. intros H. rewrite Forall_forall in FA. specialize (FA a H). lia.
Qed.

Lemma true_positions_spec mask n : List.length mask = n -> lists_where n (fun i => nth i mask false = true) (true_positions mask).
Proof.
  intros L. split; [apply filter_sorted, seq_sorted|]. intros i. unfold true_positions. rewrite filter_In, in_seq, L. intuition lia.
Qed.
Lemma nth_negb mask i : (i < List.length mask)%nat -> nth i (map negb mask) false = negb (nth i mask false).
Proof. intros H. rewrite (nth_indep (map negb mask) false (negb false)) by (rewrite map_length; auto). apply map_nth. Qed.
Lemma false_positions_spec mask n : List.length mask = n -> lists_where n (fun i => nth i mask false = false) (true_positions (map negb mask)).
Proof.
  intros L. split; [apply filter_sorted, seq_sorted|]. intros i. unfold true_positions. rewrite filter_In, in_seq, map_length, L. split.
  - intros [H1 H2]. split; [lia|]. rewrite nth_negb in H2 by lia. apply negb_true_iff; auto.
  - intros [H1 H2]. split; [lia|]. rewrite nth_negb, H2 by lia. reflexivity.
Qed.

Lemma skipn_skipn {A} b a (l : list A) : skipn b (skipn a l) = skipn (b + a) l.
Proof.
  revert l. induction a as [|a IH]; intros l; [rewrite Nat.add_0_r; reflexivity|]. rewrite Nat.add_succ_r. destruct l as [|h l]; cbn [skipn]; [destruct b; reflexivity|apply IH].
Qed.
Lemma nodup_app_r {A} (a b : list A) : NoDup (a ++ b) -> NoDup b.
Proof. induction a as [|h a IH]; cbn; auto. intros H. inversion H; auto. Qed.
Lemma firstn_skipn_disjoint {A} (l : list A) a b x y : NoDup l -> In x (firstn b (skipn a l)) -> In y (skipn (a + b) l) -> x <> y.
Proof.
  intros ND HX HY E. subst y.
  assert (ND' : NoDup (skipn a l)). { rewrite <- (firstn_skipn a l) in ND. apply nodup_app_r in ND. exact ND. }
  rewrite <- (firstn_skipn b (skipn a l)) in ND'. rewrite skipn_skipn in ND'. rewrite (Nat.add_comm b a) in ND'.
  revert ND' HX HY. generalize (firstn b (skipn a l)) (skipn (a + b) l). clear. induction l as [|h l IH]; cbn; [tauto|].
  intros l' ND [->|HX] HY; inversion ND; subst; [apply H1; apply in_or_app; auto|]. eapply IH; eauto.
Qed.
Lemma in_firstn {A} n (l : list A) x : In x (firstn n l) -> In x l.
Proof. intros H. rewrite <- (firstn_skipn n l). apply in_or_app; auto. Qed.
Lemma in_skipn {A} n (l : list A) x : In x (skipn n l) -> In x l.
Proof. intros H. rewrite <- (firstn_skipn n l). apply in_or_app; auto. Qed.

Lemma split_loop_ok pick sfl w : valid_pick pick -> NoDup sfl -> (0 < w)%nat -> forall fuel i, ((i + fuel) * w <= List.length sfl)%nat ->
  exists l, split_loop pick sfl w i fuel = Ok l /\ List.length l = fuel /\ NoDup l /\ (forall x, In x l -> In x (skipn (i * w) sfl)) /\
    forall t, (t < fuel)%nat -> In (nth t l 0%nat) (block sfl w (i + t)).
Proof.
  intros VP ND W. induction fuel as [|fuel IH]; intros i H.
  - exists []. repeat split; try constructor; cbn; intros; try lia; tauto.
  - destruct (IH (S i) ltac:(lia)) as (l & E & LL & NL & IN & BL). cbn [split_loop]. rewrite E.
    assert (NE : firstn w (skipn (i * w) sfl) <> []).
    { intros Z. apply (f_equal (@List.length nat)) in Z. rewrite firstn_length, skipn_length in Z. cbn in Z. nia. }
    destruct (firstn w (skipn (i * w) sfl)) as [|h s] eqn:ES; [congruence|]. rewrite <- ES in *. cbn [bind].
    pose proof (VP i (firstn w (skipn (i * w) sfl)) NE) as VI.
    exists (pick i (firstn w (skipn (i * w) sfl)) :: l). split; [reflexivity|]. split; [cbn; lia|]. split; [|split].
    + constructor; auto. intros HI. apply IN in HI. replace (S i * w)%nat with (i * w + w)%nat in HI by lia.
      apply (firstn_skipn_disjoint sfl (i * w) w _ _ ND VI HI). reflexivity.
    + intros x [<-|HX]; [apply (in_firstn w); exact VI|]. apply IN in HX. replace (S i * w)%nat with (w + i * w)%nat in HX by lia.
      rewrite <- skipn_skipn in HX. apply in_skipn in HX. exact HX.
    + intros [|t] Ht; [rewrite Nat.add_0_r; exact VI|]. cbn [nth]. replace (i + S t)%nat with (S i + t)%nat by lia. apply BL. lia.
Qed.

Lemma nth_mask chosen n i : (i < n)%nat -> nth i (map (fun i => existsb (Nat.eqb i) chosen) (seq 0 n)) false = existsb (Nat.eqb i) chosen.
Proof.
  intros H. rewrite (nth_indep _ false ((fun i => existsb (Nat.eqb i) chosen) 0%nat)) by (rewrite map_length, seq_length; auto).
  rewrite (map_nth (fun i => existsb (Nat.eqb i) chosen)), seq_nth by auto. reflexivity.
Qed.
Lemma existsb_eqb i l : existsb (Nat.eqb i) l = true <-> In i l.
Proof.
  rewrite existsb_exists. split; [intros (x & H & E); apply Nat.eqb_eq in E; subst; auto|intros H; exists i; split; [auto|apply Nat.eqb_refl]].
Qed.

Lemma split_ok n ratio sfl pick c : shuffle n sfl -> valid_pick pick -> int_mul n ratio = Z.of_nat c -> (1 <= c <= n)%nat -> (Z.of_nat n < 2 ^ 53)%Z ->
  exists train, sampler_split n ratio sfl pick = Ok (train, map negb train) /\ List.length train = n /\ List.length (true_positions train) = c /\
    (forall i, (i < c)%nat -> exists r, In r (block sfl (n / c) i) /\ nth r train false = true /\
       forall r', In r' (block sfl (n / c) i) -> nth r' train false = true -> r' = r).
Proof.
  intros SH VP EC C B. unfold sampler_split. rewrite EC. destruct (Z.eqb_spec (Z.of_nat c) 0); [lia|]. destruct (Z.ltb_spec (Z.of_nat c) 0); [lia|].
  rewrite !Nat2Z.id, int_true_div_exact, Nat2Z.id by lia.
  assert (W : (0 < n / c)%nat) by (apply Nat.div_str_pos; lia).
  assert (CW : (c * (n / c) <= n)%nat) by (apply Nat.mul_div_le; lia).
  assert (LS : List.length sfl = n) by (rewrite (Permutation_length SH), seq_length; reflexivity).
  assert (NS : NoDup sfl) by (apply (Permutation_NoDup (Permutation_sym SH)), seq_NoDup).
  assert (IS : forall x, In x sfl -> (x < n)%nat) by (intros x HI; apply (Permutation_in x SH), in_seq in HI; lia).
  destruct (split_loop_ok pick sfl (n / c) VP NS W c 0) as (l & E & LL & NL & IN & BL); [rewrite LS; lia|].
  rewrite E. cbn [bind]. set (train := map (fun i => existsb (Nat.eqb i) l) (seq 0 n)).
  assert (LT : List.length train = n) by (unfold train; rewrite map_length, seq_length; reflexivity).
  assert (IL : forall x, In x l -> In x sfl) by (intros x HI; apply IN in HI; cbn in HI; exact HI).
  exists train. split; [reflexivity|]. split; [exact LT|]. split.
  - rewrite <- LL. apply Permutation_length, NoDup_Permutation; auto.
    + apply sorted_nodup, filter_sorted, seq_sorted.
    + intros x. destruct (true_positions_spec train n LT) as [_ HP]. rewrite HP. split.
      * intros [Hx T]. unfold train in T. rewrite nth_mask in T by auto. apply existsb_eqb; auto.
      * intros Hx. assert (x < n)%nat by (apply IS, IL; auto). split; [auto|]. unfold train. rewrite nth_mask by auto. apply existsb_eqb; auto.
  - intros i Hi. pose proof (BL i Hi) as BI. cbn [Nat.add] in BI. exists (nth i l 0%nat). split; [exact BI|].
    assert (BS : forall r i, In r (block sfl (n / c) i) -> (r < n)%nat).
    { intros r i0 HI. apply IS. unfold block in HI. apply in_firstn in HI. apply in_skipn in HI. exact HI. }
    split. { unfold train. rewrite nth_mask by (eapply BS; eauto). apply existsb_eqb, nth_In. lia. }
    intros r' BR TR. unfold train in TR. rewrite nth_mask in TR by (eapply BS; eauto). apply existsb_eqb in TR.
    destruct (In_nth l r' 0%nat TR) as (t & Ht & Et). destruct (Nat.eq_dec t i) as [->|NT]; [symmetry; exact Et|exfalso].
    pose proof (BL t ltac:(lia)) as BT. cbn [Nat.add] in BT. rewrite Et in BT.
    assert (SUB : forall a r, In r (block sfl (n / c) a) -> forall b, (b < a)%nat -> In r (skipn (b * (n / c) + n / c) sfl)).
    { intros a r HR b Hb. unfold block in HR. apply in_firstn in HR.
      replace (a * (n / c))%nat with ((a - b - 1) * (n / c) + (b * (n / c) + n / c))%nat in HR by nia.
      rewrite <- skipn_skipn in HR. apply in_skipn in HR. exact HR. }
    destruct (proj1 (Nat.lt_gt_cases t i) NT) as [LT'|GT'].
    + apply (firstn_skipn_disjoint sfl (t * (n / c)) (n / c) r' r' NS BT (SUB i r' BR t LT')). reflexivity.
    + apply (firstn_skipn_disjoint sfl (i * (n / c)) (n / c) r' r' NS BR (SUB t r' BT i GT')). reflexivity.
Qed.

Lemma split_too_many n ratio sfl pick c : int_mul n ratio = Z.of_nat c -> (n < c)%nat -> (Z.of_nat n < 2 ^ 53)%Z ->
  sampler_split n ratio sfl pick = Err ValueError.
Proof.
  intros EC C B. unfold sampler_split. rewrite EC. destruct (Z.eqb_spec (Z.of_nat c) 0); [lia|]. destruct (Z.ltb_spec (Z.of_nat c) 0); [lia|].
  rewrite !Nat2Z.id, int_true_div_exact, Nat2Z.id, Nat.div_small by lia. destruct c; [lia|]. reflexivity.
Qed.
Lemma split_zero n ratio sfl pick : int_mul n ratio = 0%Z -> sampler_split n ratio sfl pick = Err ZeroDivisionError.
Proof. intros E. unfold sampler_split. rewrite E. reflexivity. Qed.
Lemma split_negative n ratio sfl pick : (int_mul n ratio < 0)%Z ->
  exists train, sampler_split n ratio sfl pick = Ok (train, map negb train) /\ List.length train = n /\ true_positions train = [].
Proof.
  intros E. unfold sampler_split. destruct (Z.eqb_spec (int_mul n ratio) 0); [lia|]. destruct (Z.ltb_spec (int_mul n ratio) 0); [|lia].
  cbn [bind]. eexists. split; [reflexivity|]. assert (L : List.length (map (fun i => existsb (Nat.eqb i) []) (seq 0 n)) = n) by (rewrite map_length, seq_length; reflexivity).
  split; [exact L|]. destruct (true_positions_spec _ n L) as [_ HP].
  match goal with |- ?t = [] => destruct t as [|a t'] eqn:ET; [reflexivity|exfalso] end.
  destruct (proj1 (HP a)) as [Ha T]; [left; reflexivity|]. rewrite nth_mask in T by auto. discriminate.
Qed.

(** ** Features *)
Lemma mask_rows_ok x mask n : dataset x n -> List.length mask = n ->
  exists t, mask_rows x mask = Ok t /\ rows_of_data x t (true_positions mask).
Proof.
  intros D L. unfold mask_rows, rows_of_data, dataset, feature_count, feature, ndim. destruct D as [Sh|[f Sh]]; rewrite Sh, L, Nat.eqb_refl; eexists; (split; [reflexivity|]); cbn [shape at_ List.length].
  - split; [left; reflexivity|]. repeat split.
  - split; [right; exists f; reflexivity|]. repeat split.
Qed.

Lemma linspace_dataset n : dataset (linspace01 n) n /\ feature_count (linspace01 n) = 1%nat.
Proof. split; [left|]; reflexivity. Qed.
Lemma linspace_inj n i j : (i < n)%nat -> (j < n)%nat -> i <> j -> at_ (linspace01 n) [i] <> at_ (linspace01 n) [j].
Proof.
  intros Hi Hj NE E. cbn in E. assert (P : 0 < INR (n - 1)) by (apply lt_0_INR; lia).
  apply NE, INR_eq. apply (Rmult_eq_reg_r (/ INR (n - 1))); [exact E|]. apply Rinv_neq_0_compat. lra.
Qed.

Lemma flat_rows {A} (g : nat -> nat -> A) p d : forall m s i j, (i < m)%nat -> (j < p)%nat ->
  nth (i * p + j) (flat_map (fun i => map (g i) (seq 0 p)) (seq s m)) d = g (s + i)%nat j.
Proof.
  induction m as [|m IH]; intros s i j Hi Hj; [lia|]. cbn [seq flat_map].
  destruct i as [|i].
  - cbn [Nat.mul Nat.add]. rewrite app_nth1 by (rewrite map_length, seq_length; auto).
    rewrite (nth_indep _ d (g s 0%nat)) by (rewrite map_length, seq_length; auto). rewrite (map_nth (g s)), seq_nth, Nat.add_0_r by auto. reflexivity.
  - rewrite app_nth2 by (rewrite map_length, seq_length; lia). rewrite map_length, seq_length.
    replace (S i * p + j - p)%nat with (i * p + j)%nat by lia. rewrite IH by lia. f_equal. lia.
Qed.
Lemma flat_length {A} (g : nat -> nat -> A) p : forall m s, List.length (flat_map (fun i => map (g i) (seq 0 p)) (seq s m)) = (m * p)%nat.
Proof. induction m as [|m IH]; intros s; cbn [seq flat_map]; [reflexivity|]. rewrite app_length, map_length, seq_length, IH. lia. Qed.

Lemma grid_dataset p : dataset (grid2 p) (p * p) /\ feature_count (grid2 p) = 2%nat.
Proof. split; [|reflexivity]. right. exists 2%nat. unfold grid2, grid_rows. cbn [shape]. rewrite (flat_length (fun i j => (at_ (linspace01 p) [j], at_ (linspace01 p) [i])) p p 0). reflexivity. Qed.
Lemma grid_point p i j : (i < p)%nat -> (j < p)%nat ->
  feature (grid2 p) (i * p + j) 0 = at_ (linspace01 p) [j] /\ feature (grid2 p) (i * p + j) 1 = at_ (linspace01 p) [i].
Proof.
  intros Hi Hj. unfold feature, grid2. cbn [shape at_]. unfold grid_rows.
  rewrite (flat_rows (fun i j => (at_ (linspace01 p) [j], at_ (linspace01 p) [i])) p (0, 0) p 0 i j Hi Hj). split; reflexivity.
Qed.
Lemma row_split p r : (r < p * p)%nat -> r = (r / p * p + r mod p)%nat /\ (r / p < p)%nat /\ (r mod p < p)%nat.
Proof.
  intros H. assert (p <> 0)%nat by lia. pose proof (Nat.div_mod r p ltac:(auto)). pose proof (Nat.mod_upper_bound r p ltac:(auto)).
  split; [lia|]. split; [apply Nat.div_lt_upper_bound; lia|auto].
Qed.
Lemma grid_inj p r r' : (r < p * p)%nat -> (r' < p * p)%nat -> r <> r' -> exists f, (f < 2)%nat /\ feature (grid2 p) r f <> feature (grid2 p) r' f.
Proof.
  intros H H' NE. destruct (row_split p r H) as (E & A & B). destruct (row_split p r' H') as (E' & A' & B').
  destruct (grid_point p _ _ A B) as [G0 G1]. destruct (grid_point p _ _ A' B') as [G0' G1']. rewrite <- E in G0, G1. rewrite <- E' in G0', G1'.
  destruct (Nat.eq_dec (r mod p) (r' mod p)) as [EM|NM].
  - exists 1%nat. split; [lia|]. rewrite G1, G1'. apply linspace_inj; auto. intros ED. apply NE. rewrite E, E', EM, ED. reflexivity.
  - exists 0%nat. split; [lia|]. rewrite G0, G0'. apply linspace_inj; auto.
Qed.
Lemma linspace_prior v n : 0 <= v -> sound_prior v (linspace01 n) n.
Proof. intros V. right. split; [exact V|]. intros i j Hi Hj NE. exists 0%nat. split; [cbn; lia|]. apply (linspace_inj n i j Hi Hj NE). Qed.
Lemma grid_prior v p : 0 <= v -> sound_prior v (grid2 p) (p * p).
Proof. intros V. right. split; [exact V|]. intros i j Hi Hj NE. apply (grid_inj p i j Hi Hj NE). Qed.

(** ** Responses *)
Section Study.
Variables (gamma : R -> R) (kv : R -> R -> R).
Notation cov K F cur := (lk_cov gamma kv K F cur []).

Lemma white_sub outcomes pi n m z : (n <= m)%nat -> white outcomes pi m z -> white outcomes pi n z.
Proof. intros H [P W]. split; [exact P|]. intros i j Hi Hj. apply W; lia. Qed.

Lemma make_ok x n ratio sfl pick K cur m v c : dataset x n -> shuffle n sfl -> valid_pick pick -> int_mul n ratio = Z.of_nat c -> (1 <= c <= n)%nat ->
  (Z.of_nat n < 2 ^ 53)%Z ->
  exists s tr te, make_sampler x n ratio sfl pick K cur m v = Ok s /\ List.length tr = c /\ (List.length tr + List.length te = n)%nat /\
    lists_where n (fun i => nth i (sm_train_mask s) false = true) tr /\ lists_where n (fun i => nth i (sm_train_mask s) false = false) te /\
    rows_of_data x (sm_train s) tr /\ rows_of_data x (sm_test s) te /\ Permutation (tr ++ te) (seq 0 n) /\
    sm_x s = x /\ sm_gp s = mkBench K cur m 1 /\ sm_noise s = v /\ sm_test_mask s = map negb (sm_train_mask s) /\ List.length (sm_train_mask s) = n /\
    tr = true_positions (sm_train_mask s) /\ te = true_positions (sm_test_mask s).
Proof.
  intros D SH VP EC C B. unfold make_sampler. destruct (split_ok n ratio sfl pick c SH VP EC C B) as (train & E & LT & LC & _). rewrite E. cbn [bind fst snd].
  destruct (mask_rows_ok x (map negb train) n D) as (te & E1 & R1); [rewrite map_length; auto|].
  destruct (mask_rows_ok x train n D LT) as (tr & E2 & R2). rewrite E1. cbn [bind]. rewrite E2. cbn [bind].
  eexists. exists (true_positions train), (true_positions (map negb train)). split; [reflexivity|].
  pose proof (true_positions_spec train n LT) as P1. pose proof (false_positions_spec train n LT) as P2.
  assert (PM : Permutation (true_positions train ++ true_positions (map negb train)) (seq 0 n)).
  { apply NoDup_Permutation; [|apply seq_NoDup|].
    - assert (ND : NoDup (true_positions train)) by (apply sorted_nodup, P1). assert (ND' : NoDup (true_positions (map negb train))) by (apply sorted_nodup, P2).
      assert (DJ : forall i, In i (true_positions train) -> ~ In i (true_positions (map negb train))).
      { intros i H1 H2. apply P1 in H1. apply P2 in H2. destruct H1, H2. congruence. }
      revert ND DJ. generalize (true_positions train). intros l. induction l as [|h l IH]; cbn; [auto|]. intros ND DJ. inversion ND; subst. constructor.
      + intros HI. apply in_app_or in HI. destruct HI; [auto|]. apply (DJ h); auto.
      + apply IH; [assumption|]. intros i Hi. apply DJ; right; exact Hi.
    - intros i. rewrite in_app_iff, in_seq. destruct P1 as [_ P1], P2 as [_ P2]. rewrite P1, P2. split.
      + intros [[H1 _]|[H1 _]]; lia.
      + intros [_ H1]. destruct (nth i train false); [left|right]; (split; [lia|reflexivity]). }
  split; [exact LC|]. split. { apply Permutation_length in PM. rewrite app_length, seq_length in PM. exact PM. }
  cbn [sm_train_mask sm_train sm_test sm_x sm_gp sm_noise sm_test_mask]. repeat (split; [first [exact P1|exact P2|exact R1|exact R2|exact PM|exact LT|reflexivity]|]). reflexivity.
Qed.

Lemma mask_vec y mask n : shape y = [n] -> List.length mask = n ->
  exists t, mask_rows y mask = Ok t /\ shape t = [List.length (true_positions mask)] /\
    forall a, at_ t [a] = at_ y [nth a (true_positions mask) 0%nat].
Proof. intros Sh L. unfold mask_rows. rewrite Sh, L, Nat.eqb_refl. eexists. split; [reflexivity|]. split; reflexivity. Qed.

Lemma mixed_cov outcomes pi n N w (L : nat -> nat -> R) i a : white outcomes pi (n + N) w -> (a < N)%nat ->
  expect outcomes pi (fun o => rsum n (fun k => L i k * w o k) * w o (n + a)%nat) = 0.
Proof.
  intros [_ W] Ha. rewrite (expect_ext outcomes pi _ (fun o => rsum n (fun k => L i k * (w o k * w o (n + a)%nat)))).
  2:{ intros o Ho. rewrite <- rsum_scal_r. apply rsum_ext. intros; ring. }
  rewrite expect_rsum, (rsum_ext n _ (fun _ => 0)); [apply rsum_0|]. intros k Hk. rewrite expect_scal, W by lia.
  destruct (Nat.eqb_spec k (n + a)); [lia|ring].
Qed.

Lemma study x n ratio sfl pick K cur m v c ch outcomes pi w : exact_cholesky ch -> lk_ok K (feature_count x) cur [] -> dataset x n -> (2 <= n)%nat ->
  shuffle n sfl -> valid_pick pick -> int_mul n ratio = Z.of_nat c -> (1 <= c <= n)%nat -> (Z.of_nat n < 2 ^ 53)%Z -> uniform_noise m ->
  sound_prior (noise_val m) x n -> 0 <= v -> white outcomes pi (n + c) w ->
  exists s resp, make_sampler x n ratio sfl pick K cur m v = Ok s /\
    (forall o, sampler_sample gamma kv ch s (w o) (fun a => w o (n + a)%nat) = Ok (resp o) /\
       shape (fst (resp o)) = [c] /\ shape (snd (resp o)) = [(n - c)%nat]) /\
    let k := cov K (feature_count x) cur in
    let tr := fun a o => at_ (fst (resp o)) [a] in
    let te := fun b o => at_ (snd (resp o)) [b] in
    (forall b b', (b < n - c)%nat -> (b' < n - c)%nat ->
       expect outcomes pi (fun o => te b o * te b' o) = kcov k (sm_test s) (sm_test s) b b' + if (b =? b')%nat then noise_val m else 0) /\
    (forall b a, (b < n - c)%nat -> (a < c)%nat -> expect outcomes pi (fun o => te b o * tr a o) = kcov k (sm_test s) (sm_train s) b a) /\
    (forall a a', (a < c)%nat -> (a' < c)%nat ->
       expect outcomes pi (fun o => tr a o * tr a' o) = kcov k (sm_train s) (sm_train s) a a' + if (a =? a')%nat then noise_val m + v * v else 0).
Proof.
  intros EX OK D N2 SH VP EC C B U SP V W.
  destruct (make_ok x n ratio sfl pick K cur m v c D SH VP EC C B) as (s & tr & te & E & LC & LN & P1 & P2 & R1 & R2 & PM & X1 & X2 & X3 & X4 & X5 & X6 & X7).
  destruct (factor gamma kv ch K cur m 1 x n EX OK D U ltac:(lra) SP) as (L & EL & SL & F & DG & G).
  assert (N1 : (n =? 1)%nat = false) by (apply Nat.eqb_neq; lia).
  assert (LTE : List.length te = (n - c)%nat) by lia.
  assert (ALL : forall o, exists p, sampler_sample gamma kv ch s (w o) (fun a => w o (n + a)%nat) = Ok p /\
     shape (fst p) = [c] /\ shape (snd p) = [(n - c)%nat] /\
     (forall a, (a < c)%nat -> at_ (fst p) [a] = rsum n (fun k => at_ L [nth a tr 0%nat; k] * w o k) + v * w o (n + a)%nat) /\
     (forall b, (b < n - c)%nat -> at_ (snd p) [b] = rsum n (fun k => at_ L [nth b te 0%nat; k] * w o k))).
  { intros o. unfold sampler_sample. rewrite X1, X2.
    destruct (sample_ok gamma kv ch (mkBench K cur m 1) x (w o) L n EL SL) as (y & EY & SY & VY). rewrite N1 in SY. unfold response in VY. rewrite N1 in VY.
    rewrite EY. cbn [bind].
    destruct (mask_vec y (sm_test_mask s) n SY) as (t1 & E1 & S1 & V1); [rewrite X4, map_length; auto|].
    destruct (mask_vec y (sm_train_mask s) n SY X5) as (t2 & E2 & S2 & V2). rewrite E1. cbn [bind]. rewrite E2. cbn [bind]. rewrite X3.
    destruct (Rlt_dec v 0); [lra|]. eexists. split; [reflexivity|]. cbn [fst snd shape at_ hd].
    rewrite <- X6 in S2, V2. rewrite <- X7 in S1, V1. rewrite LC in S2. rewrite LTE in S1. split; [exact S2|]. split; [exact S1|]. split.
    - intros a Ha. rewrite V2, VY; [reflexivity|]. apply P1, nth_In. lia.
    - intros b Hb. rewrite V1, VY; [reflexivity|]. apply P2, nth_In. lia. }
  exists s, (fun o => match sampler_sample gamma kv ch s (w o) (fun a => w o (n + a)%nat) with Ok p => p | Err _ => (mkNd [] (fun _ => 0), mkNd [] (fun _ => 0)) end).
  split; [exact E|]. split. { intros o. destruct (ALL o) as (p & -> & S1 & S2 & _). auto. }
  cbv zeta.
  assert (TR : forall a, (a < c)%nat -> (nth a tr 0%nat < n)%nat /\ nth (nth a tr 0%nat) (sm_train_mask s) false = true) by (intros a Ha; apply P1, nth_In; lia).
  assert (TE : forall b, (b < n - c)%nat -> (nth b te 0%nat < n)%nat /\ nth (nth b te 0%nat) (sm_train_mask s) false = false) by (intros b Hb; apply P2, nth_In; lia).
  destruct (lk_pointwise gamma kv K (feature_count x) cur [] OK) as [EXT _].
  destruct R1 as (_ & _ & FC1 & V1). destruct R2 as (_ & _ & FC2 & V2). rewrite LC in V1. rewrite LTE in V2.
  assert (WN : white outcomes pi n w) by (apply (white_sub outcomes pi n (n + c)); [lia|exact W]).
  assert (GL : forall i j, (i < n)%nat -> (j < n)%nat -> rsum n (fun k => at_ L [i; k] * at_ L [j; k]) = kcov (cov K (feature_count x) cur) x x i j + if (i =? j)%nat then noise_val m else 0).
  { intros i j Hi Hj. rewrite G by auto. unfold prior_cov. ring. }
  assert (NJ : forall l, NoDup l -> forall a a', (a < List.length l)%nat -> (a' < List.length l)%nat -> (nth a l 0%nat =? nth a' l 0%nat)%nat = (a =? a')%nat).
  { intros l ND a a' Ha Ha'. destruct (Nat.eqb_spec a a') as [->|NE]; [apply Nat.eqb_refl|]. apply Nat.eqb_neq. intros Q. apply NE. eapply NoDup_nth; eauto. }
  split; [|split].
  - intros b b' Hb Hb'.
    rewrite (expect_ext outcomes pi _ (fun o => rsum n (fun k => at_ L [nth b te 0%nat; k] * w o k) * rsum n (fun k => at_ L [nth b' te 0%nat; k] * w o k))).
    2:{ intros o Ho. destruct (ALL o) as (p & -> & _ & _ & _ & VB). rewrite !VB by auto. reflexivity. }
    rewrite (white_cov outcomes pi n w (fun i k => at_ L [i; k]) _ _ WN), GL by (apply TE; auto). f_equal.
    + unfold kcov. apply EXT. intros f Hf. rewrite !V2 by auto. reflexivity.
    + rewrite (NJ te) by (try lia; apply sorted_nodup, P2). reflexivity.
  - intros b a Hb Ha.
    rewrite (expect_ext outcomes pi _ (fun o => rsum n (fun k => at_ L [nth b te 0%nat; k] * w o k) * rsum n (fun k => at_ L [nth a tr 0%nat; k] * w o k) +
       v * (rsum n (fun k => at_ L [nth b te 0%nat; k] * w o k) * w o (n + a)%nat))).
    2:{ intros o Ho. destruct (ALL o) as (p & -> & _ & _ & VA & VB). rewrite VB, VA by auto. ring. }
    rewrite expect_plus, expect_scal. rewrite (white_cov outcomes pi n w (fun i k => at_ L [i; k]) _ _ WN), GL by (first [apply TE; auto|apply TR; auto]).
    rewrite (mixed_cov outcomes pi n c w (fun i k => at_ L [i; k]) _ a W Ha).
    destruct (Nat.eqb_spec (nth b te 0%nat) (nth a tr 0%nat)) as [Q|_]. { exfalso. destruct (TE b Hb) as [_ T1], (TR a Ha) as [_ T2]. rewrite Q in T1. congruence. }
    rewrite Rmult_0_r, !Rplus_0_r. unfold kcov. apply EXT. intros f Hf. rewrite V1, V2 by auto. reflexivity.
  - intros a a' Ha Ha'.
    rewrite (expect_ext outcomes pi _ (fun o => rsum n (fun k => at_ L [nth a tr 0%nat; k] * w o k) * rsum n (fun k => at_ L [nth a' tr 0%nat; k] * w o k) +
       (v * (rsum n (fun k => at_ L [nth a tr 0%nat; k] * w o k) * w o (n + a')%nat) +
        (v * (rsum n (fun k => at_ L [nth a' tr 0%nat; k] * w o k) * w o (n + a)%nat) + v * v * (w o (n + a)%nat * w o (n + a')%nat))))).
    2:{ intros o Ho. destruct (ALL o) as (p & -> & _ & _ & VA & _). rewrite !VA by auto. ring. }
    rewrite !expect_plus, !expect_scal. rewrite (white_cov outcomes pi n w (fun i k => at_ L [i; k]) _ _ WN), GL by (apply TR; auto).
    rewrite (mixed_cov outcomes pi n c w (fun i k => at_ L [i; k]) _ a' W Ha'), (mixed_cov outcomes pi n c w (fun i k => at_ L [i; k]) _ a W Ha).
    rewrite (NJ tr) by (try lia; apply sorted_nodup, P1). rewrite (proj2 W) by lia.
    assert (KE : kcov (cov K (feature_count x) cur) x x (nth a tr 0%nat) (nth a' tr 0%nat) = kcov (cov K (feature_count x) cur) (sm_train s) (sm_train s) a a').
    { unfold kcov. apply EXT. intros f Hf. rewrite !V1 by auto. reflexivity. }
    rewrite KE. replace ((n + a =? n + a')%nat) with (a =? a')%nat by (destruct (Nat.eqb_spec a a'), (Nat.eqb_spec (n + a) (n + a')); auto; lia).
    destruct (a =? a')%nat; ring.
Qed.
End Study.

(** ** Plots *)
Lemma interval_ok lb ub n ys : lists_where n (fun i => lb <= ys i <= ub) (get_interval lb ub n ys).
Proof.
  split; [apply filter_sorted, seq_sorted|]. intros i. unfold get_interval. rewrite filter_In, in_seq.
  destruct (Rle_dec lb (ys i)), (Rle_dec (ys i) ub); intuition (try lia; try lra; try discriminate).
Qed.

Lemma rank_pos mask : forall a, (a < List.length (true_positions mask))%nat ->
  List.length (true_positions (firstn (nth a (true_positions mask) 0%nat) mask)) = a.
Proof.
  assert (AUX : forall mask, true_positions mask = match mask with [] => [] | b :: r => (if b then [0%nat] else []) ++ map S (true_positions r) end).
  { intros [|b r]; [reflexivity|]. unfold true_positions. cbn [List.length seq]. rewrite <- seq_shift. cbn [filter]. change (nth 0 (b :: r) false) with b.
    assert (FM : forall l, filter (fun i => nth i (b :: r) false) (map S l) = map S (filter (fun i => nth i r false) l)).
    { induction l as [|h l IH]; cbn [map filter]; auto. change (nth (S h) (b :: r) false) with (nth h r false). rewrite IH. destruct (nth h r false); reflexivity. }
    rewrite FM. destruct b; reflexivity. }
  induction mask as [|b r IH]; intros a Ha; [cbn in Ha; lia|]. rewrite (AUX (b :: r)) in Ha |- *.
  destruct b; cbn [app] in *.
  - destruct a as [|a]; [reflexivity|]. cbn [nth List.length] in *. rewrite map_length in Ha.
    rewrite (nth_indep _ 0%nat (S 0)) by (rewrite map_length; lia). rewrite (map_nth S). cbn [firstn]. rewrite AUX. cbn [app List.length].
    rewrite map_length, IH by lia. reflexivity.
  - rewrite map_length in Ha. rewrite (nth_indep _ 0%nat (S 0)) by (rewrite map_length; lia). rewrite (map_nth S). cbn [firstn]. rewrite AUX. cbn [app].
    rewrite map_length. apply IH. lia.
Qed.

Lemma image_ok p array mask add_inf : List.length mask = (p * p)%nat -> shape array = [List.length (true_positions mask)] ->
  exists im, make_im p array (Some mask) add_inf = Ok im /\ shape im = [p; p] /\
    (forall a, (a < List.length (true_positions mask))%nat ->
       let r := nth a (true_positions mask) 0%nat in at_ im [(r / p)%nat; (r mod p)%nat] = Some (at_ array [a])) /\
    (forall i j, (i < p)%nat -> (j < p)%nat -> nth (i * p + j) mask false = false -> at_ im [i; j] = if add_inf then None else Some 0).
Proof.
  intros L Sh. unfold make_im. rewrite L, Nat.eqb_refl, Sh, Nat.eqb_refl. cbn [negb bind]. eexists. split; [reflexivity|]. split; [reflexivity|]. split.
  - intros a Ha. set (r := nth a (true_positions mask) 0%nat). destruct (true_positions_spec mask (p * p) L) as [_ H]. destruct (proj1 (H r) (nth_In _ 0%nat Ha)) as [HR TR].
    destruct (row_split p r HR) as (E & A & B). cbn [at_]. rewrite <- E, TR. unfold r. rewrite rank_pos by auto. reflexivity.
  - intros i j Hi Hj F. cbn [at_]. rewrite F. reflexivity.
Qed.
