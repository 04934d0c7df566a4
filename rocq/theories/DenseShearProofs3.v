(** Lemmas for C110, part 3: dense variances, agreement with the library, drawing from the prior. *)
From Coq Require Import Lia Lra Arith.
From Coquelicot Require Import Coquelicot.
From Verif Require Import Base BaseFacts NdModel NdFacts RSum LinAlgModel LinAlgSpec LinAlgFacts Gauss NoiseModel GPModel MuyGPSModel GPSpec MuyGPSProofs GPTheorems
  WellPosedProofs FastProofs TensorModel TensorSpec TensorProofs KernelLemmas WorkProofs ShearModel ShearSpec ShearFlowSpec ShearProofs ShearLemmas ShearFlow ShearEdge
  BestSpec BestProofs BenchModel BenchSpec BenchProofs LocalProofs DenseShearModel DenseShearSpec DenseShearProofs DenseShearProofs2.
Local Open Scope R_scope.

Lemma fill_at m lo hi v p q : at_ (fill_square m lo hi v) [p; q] =
  if (lo <=? p)%nat && (p <? hi)%nat && ((lo <=? q)%nat && (q <? hi)%nat) then v else at_ m [p; q].
Proof. reflexivity. Qed.
Lemma band m o r c : (r < m)%nat -> (c * m <=? o * m + r)%nat && (o * m + r <? S c * m)%nat = (o =? c)%nat.
Proof.
  intros Hr. destruct (Nat.eqb_spec o c) as [->|N].
  - rewrite (proj2 (Nat.leb_le _ _)), (proj2 (Nat.ltb_lt _ _)) by nia. reflexivity.
  - destruct (Nat.leb_spec (c * m) (o * m + r)); destruct (Nat.ltb_spec (o * m + r) (S c * m)); cbn; try reflexivity. nia.
Qed.
Lemma Kout_at K m o r o' r' : (r < m)%nat -> (r' < m)%nat -> (o < 3)%nat -> (o' < 3)%nat ->
  at_ (conventional_Kout K m) [(o * m + r)%nat; (o' * m + r')%nat] = if (o =? o')%nat then at_ K [o; o] else 0.
Proof.
  intros Hr Hr' Ho Ho'. unfold conventional_Kout. rewrite !fill_at.
  pose proof (band m o r 0 Hr) as B0. pose proof (band m o r 1 Hr) as B1. pose proof (band m o r 2 Hr) as B2.
  pose proof (band m o' r' 0 Hr') as C0. pose proof (band m o' r' 1 Hr') as C1. pose proof (band m o' r' 2 Hr') as C2.
  rewrite !Nat.mul_0_l, !Nat.mul_1_l in *. rewrite B0, B1, B2, C0, C1, C2.
  destruct o as [|[|[|o]]]; [| | |lia]; (destruct o' as [|[|[|o']]]; [| | |lia]); reflexivity.
Qed.

Lemma prior_cross l x o o' : l <> 0 -> (o < 3)%nat -> (o' < 3)%nat -> o <> o' -> shear_cov l (obs o) (obs o') x x = 0.
Proof.
  intros Hl Ho Ho' N. rewrite cov_closed by auto.
  replace (x 0%nat - x 0%nat) with 0 by ring. replace (x 1%nat - x 1%nat) with 0 by ring.
  destruct o as [|[|[|o]]]; [| | |lia]; (destruct o' as [|[|[|o']]]; [| | |lia]); try lia;
    unfold cform; cbn [obs]; cbv zeta; unfold kk_fn, kg1_fn, kg2_fn, g1g1_fn, g1g2_fn, g2g2_fn; unfold Rdiv; ring.
Qed.

Lemma dense_variance_unfold ls km nan noise test train targets l Kin Kcross y K n m d : stacked_noise noise km n d ->
  dense_inputs km nan test train targets l = Ok (Kin, Kcross, y) -> shape Kin = [observed km * n; observed km * n]%nat -> shape test = [m; 2]%nat ->
  (match km with Full33 => shear33_Kout l None | Two23 => shear23_Kout l None end) = Ok K ->
  dense_variance ls km nan noise test train targets l = flat_variance ls Kin Kcross (conventional_Kout K m) (nugget_of noise (observed km * n)%nat).
Proof.
  intros Hd E SK S1 EK. unfold dense_variance. rewrite E. cbn [bind]. rewrite EK. cbn [bind]. rewrite S1.
  destruct noise as [v|t|v|]; cbn [stacked_noise] in Hd; try (destruct km; contradiction).
  - unfold conventional_variance. rewrite SK. reflexivity.
  - destruct km; [|contradiction]. unfold conventional_variance33. rewrite SK. cbn [observed].
    rewrite (Nat.mul_comm 3 n), Nat.mod_mul by lia. cbn [Nat.eqb negb]. reflexivity.
Qed.

(** What the dense covariance contains: the right posterior term, but a prior term that depends on the observables only. *)
Lemma dense_variance_ok ls : exact_solver ls -> forall km nan l noise d test train targets n m,
  0 < l -> (0 < n)%nat -> shape test = [m; 2]%nat -> shape train = [n; 2]%nat -> shape targets = [n; 3]%nat -> stacked_noise noise km n d ->
  (forall p, (p < observed km * n)%nat -> 0 < d p) ->
  exists t, dense_variance ls km nan noise test train targets l = Ok t /\ shape t = [3 * m; 3 * m]%nat /\
    forall r o r' o', (r < m)%nat -> (o < 3)%nat -> (r' < m)%nat -> (o' < 3)%nat -> exists w,
      solves (observed km * n) (plus_diag (stacked_cov l (unobserved km) n (feature train)) d) w
        (stacked_cross l (unobserved km) n (feature train) (feature test r') o') /\
      at_ t [(o * m + r)%nat; (o' * m + r')%nat] = shear_cov l (obs o) (obs o') (feature test r) (feature test r)
        - dot (observed km * n) (stacked_cross l (unobserved km) n (feature train) (feature test r) o) w.
Proof.
  intros EX km nan l noise d test train targets n m Hl Hn S1 S2 S3 Hd Pd.
  destruct (dense_inputs_ok km nan test train targets l n m ltac:(lra) Hn S1 S2 S3) as (Kin & Kc & y & E & SK & SC & SY & VK & VC & VY).
  destruct (kout_ok km l Hl) as (K & EK & SKo & VKo).
  rewrite (dense_variance_unfold ls km nan noise test train targets l Kin Kc y K n m d Hd E SK S1 EK).
  destruct (nugget_ok noise km n d Hn Hd) as [SN VN].
  set (N := (observed km * n)%nat) in *. set (A := plus_diag (stacked_cov l (unobserved km) n (feature train)) d).
  assert (EA : forall i j, (i < N)%nat -> (j < N)%nat -> at_ Kin [i; j] + at_ (nugget_of noise N) [i; j] = A i j).
  { intros i j Hi Hj. unfold A, plus_diag. rewrite VK, VN by auto. reflexivity. }
  assert (PD : pd N A) by (apply plus_diag_pd; auto; apply stacked_psd; auto).
  destruct (flat_variance_ok ls EX Kin Kc (conventional_Kout K m) (nugget_of noise N) N (3 * m) SK SC eq_refl SN) as (t & Et & St & Vt).
  - apply (nonsingular_ext N A); [intros; symmetry; auto|apply pd_nonsingular; exact PD].
  - exists t. split; [exact Et|]. split; [exact St|]. intros r o r' o' Hr Ho Hr' Ho'.
    destruct (Vt (o * m + r)%nat (o' * m + r')%nat ltac:(nia) ltac:(nia)) as (w & W & ->). exists w. split.
    + intros i Hi. pose proof (W i Hi) as E'. cbn beta in E'. rewrite VC in E' by auto. rewrite <- E'. apply rsum_ext. intros j Hj. rewrite EA by auto. reflexivity.
    + rewrite Kout_at by auto. f_equal.
      * destruct (Nat.eqb_spec o o') as [<-|NE]; [apply VKo; auto|]. rewrite prior_cross by (auto; lra). reflexivity.
      * unfold dot. apply rsum_ext. intros j Hj. rewrite VC by auto. reflexivity.
Qed.

(** ** Agreement with the library when every training row is a neighbour *)
Section Perm.
Variables (n : nat) (rows : nat -> nat).
Hypothesis PM : perm_on n rows.
Definition spread (p : nat) : nat := (p / n * n + rows (p mod n))%nat.
Lemma spread_dm p c : (p < c * n)%nat -> (spread p / n = p / n)%nat /\ (spread p mod n = rows (p mod n))%nat /\ (spread p < c * n)%nat.
Proof.
  intros Hp. assert (n <> 0)%nat as N by lia. assert (p mod n < n)%nat as M by (apply Nat.mod_upper_bound; auto).
  pose proof (proj1 PM _ M) as RB. unfold spread. destruct (shift_div n (p / n) (rows (p mod n)) ltac:(lia)) as [D1 M1].
  rewrite D1, M1, (Nat.div_small (rows (p mod n)) n), (Nat.mod_small (rows (p mod n)) n) by auto. split; [lia|]. split; [reflexivity|].
  assert (p / n < c)%nat by (apply Nat.div_lt_upper_bound; lia). nia.
Qed.
Lemma spread_perm c : perm_on (c * n) spread.
Proof.
  split.
  - intros p Hp. apply (spread_dm p c Hp).
  - intros p q Hp Hq E. assert (n <> 0)%nat as N by lia.
    destruct (spread_dm p c Hp) as (D1 & M1 & _). destruct (spread_dm q c Hq) as (D2 & M2 & _). rewrite E in D1, M1.
    rewrite (Nat.div_mod p n N), (Nat.div_mod q n N). f_equal; [f_equal; congruence|].
    apply (proj2 PM); [apply Nat.mod_upper_bound; auto|apply Nat.mod_upper_bound; auto|congruence].
Qed.
End Perm.

Lemma noise_spread noise km n d rows p : (0 < n)%nat -> perm_on n rows -> stacked_noise noise km n d -> (p < observed km * n)%nat -> d (spread n rows p) = d p.
Proof.
  intros Hn PM Hd Hp. destruct (spread_dm n rows PM p (observed km) Hp) as (D & _ & _).
  destruct noise as [v|t|v|]; cbn [stacked_noise] in Hd; try (destruct km; contradiction).
  - subst d. reflexivity.
  - destruct km; [|contradiction]. subst d. unfold shear_noise.
    assert (Q : forall q, (q <? n)%nat = (q / n =? 0)%nat).
    { intros q. destruct (Nat.ltb_spec q n) as [L|L]; [rewrite Nat.div_small by auto; reflexivity|].
      destruct (Nat.eqb_spec (q / n) 0) as [E|E]; [apply Nat.div_small_iff in E; lia|reflexivity]. }
    rewrite !Q, D. reflexivity.
Qed.

Section Agree.
Variables (km : shear_model) (l : R) (noise : noise_model) (d : nat -> R) (test train targets : nd R) (n : nat) (rows : nat -> nat).
Hypotheses (Hl : 0 < l) (Hn : (0 < n)%nat) (PM : perm_on n rows) (Hd : stacked_noise noise km n d) (Pd : forall p, (p < observed km * n)%nat -> 0 < d p).
Let N := (observed km * n)%nat.
Let A := plus_diag (stacked_cov l (unobserved km) n (feature train)) d.
Let A' := plus_diag (stacked_cov l (unobserved km) n (fun i => feature train (rows i))) d.
Let sg := spread n rows.
Lemma A_pd : pd N A /\ pd N A'.
Proof. split; apply plus_diag_pd; auto; apply stacked_psd; auto. Qed.
Lemma A_spread i j : (i < N)%nat -> (j < N)%nat -> A' i j = A (sg i) (sg j).
Proof.
  intros Hi Hj. destruct (spread_dm n rows PM i _ Hi) as (D1 & M1 & _). destruct (spread_dm n rows PM j _ Hj) as (D2 & M2 & _).
  unfold A. unfold sg. rewrite <- (plus_diag_perm N (spread n rows)) by (auto; apply spread_perm; auto).
  unfold A', plus_diag. f_equal.
  - unfold stacked_cov. rewrite D1, D2, M1, M2. reflexivity.
  - rewrite (noise_spread noise km n d rows i Hn PM Hd Hi). reflexivity.
Qed.
Lemma cross_spread r o i : (i < N)%nat ->
  stacked_cross l (unobserved km) n (fun i => feature train (rows i)) (feature test r) o i =
  stacked_cross l (unobserved km) n (feature train) (feature test r) o (sg i).
Proof. intros Hi. destruct (spread_dm n rows PM i _ Hi) as (D1 & M1 & _). unfold stacked_cross, sg. rewrite D1, M1. reflexivity. Qed.

Lemma mean_det r o v v' :
  kriging N A' (stacked_cross l (unobserved km) n (fun i => feature train (rows i)) (feature test r) o)
    (fun p => at_ targets [rows (p mod n)%nat; (unobserved km + p / n)%nat]) v ->
  kriging N A (stacked_cross l (unobserved km) n (feature train) (feature test r) o)
    (fun p => at_ targets [(p mod n)%nat; (unobserved km + p / n)%nat]) v' -> v = v'.
Proof.
  intros (w & W & ->) (w' & W' & ->).
  pose proof (solves_perm N A w' _ sg (spread_perm n rows PM (observed km)) W') as W2.
  assert (W3 : solves N A' (fun j => w' (sg j)) (stacked_cross l (unobserved km) n (fun i => feature train (rows i)) (feature test r) o)).
  { intros i Hi. rewrite cross_spread by auto. rewrite <- (W2 i Hi). apply rsum_ext. intros j Hj. rewrite A_spread by auto. reflexivity. }
  pose proof (solves_unique N A' w _ _ (pd_nonsingular N A' (proj2 A_pd)) W W3) as U.
  unfold dot. rewrite <- (rsum_perm N sg (fun j => w' j * _)) by (apply spread_perm; auto). apply rsum_ext. intros j Hj. rewrite U by auto.
  destruct (spread_dm n rows PM j _ Hj) as (D1 & M1 & _). unfold sg. rewrite D1, M1. reflexivity.
Qed.

Lemma var_det r o r' o' w w' :
  solves N A' w (stacked_cross l (unobserved km) n (fun i => feature train (rows i)) (feature test r) o) ->
  solves N A w' (stacked_cross l (unobserved km) n (feature train) (feature test r') o') ->
  dot N w (stacked_cross l (unobserved km) n (fun i => feature train (rows i)) (feature test r') o') =
  dot N (stacked_cross l (unobserved km) n (feature train) (feature test r) o) w'.
Proof.
  intros W W'.
  pose proof (solves_perm N A w' _ sg (spread_perm n rows PM (observed km)) W') as W2.
  assert (W3 : solves N A' (fun j => w' (sg j)) (stacked_cross l (unobserved km) n (fun i => feature train (rows i)) (feature test r') o')).
  { intros i Hi. rewrite cross_spread by auto. rewrite <- (W2 i Hi). apply rsum_ext. intros j Hj. rewrite A_spread by auto. reflexivity. }
  assert (SYM : symmetric N A') by (apply plus_diag_sym, stacked_sym; lra).
  rewrite (symmetric_adjoint N A' w _ _ _ SYM W W3).
  unfold dot. rewrite <- (rsum_perm N sg (fun j => _ * w' j)) by (apply spread_perm; auto). apply rsum_ext. intros j Hj. rewrite cross_spread by auto. reflexivity.
Qed.
End Agree.

Lemma mean_agrees ls ls' : exact_solver ls -> exact_solver ls' -> forall km nan l noise d test train targets ix nn m n b,
  0 < l -> shear_inputs test train targets ix nn m n b n -> all_neighbours nn b n -> stacked_noise noise km n d ->
  (forall p, (p < observed km * n)%nat -> 0 < d p) ->
  exists t t', shear_predict ls km l noise test train targets ix nn = Ok t /\ shape t = [b; 3]%nat /\
    dense_mean ls' km nan noise test train targets l = Ok t' /\ shape t' = [m; 3]%nat /\
    forall x r o, (x < b)%nat -> (o < 3)%nat -> selects m (at_ ix [x]) r -> at_ t [x; o] = at_ t' [r; o].
Proof.
  intros EX EX' km nan l noise d test train targets ix nn m n b Hl SI AN Hd Pd.
  assert (Hn : (0 < n)%nat) by (destruct SI; lia).
  destruct (shear_predict_ok ls EX km l noise d test train targets ix nn m n b n Hl SI Hd Pd) as (t & Et & St & Vt).
  destruct (dense_mean_ok ls' EX' km nan l noise d test train targets n m Hl Hn (si_test _ _ _ _ _ _ _ _ _ SI) (si_train _ _ _ _ _ _ _ _ _ SI)
    (si_targets _ _ _ _ _ _ _ _ _ SI) Hd Pd) as (t' & Et' & St' & Vt').
  exists t, t'. split; [exact Et|]. split; [exact St|]. split; [exact Et'|]. split; [exact St'|]. intros x r o Hx Ho Hr.
  destruct (AN x Hx) as (rows & SR & INJ).
  assert (PM : perm_on n rows) by (split; [intros i Hi; apply (SR i Hi)|exact INJ]).
  apply (mean_det km l noise d test train targets n rows Hl Hn PM Hd Pd r o).
  - apply (Vt x r rows o Hx Ho Hr SR).
  - apply (Vt' r o); auto. apply Hr.
Qed.

Lemma variance_agrees ls ls' : exact_solver ls -> exact_solver ls' -> forall km nan l noise d test train targets ix nn m n b,
  0 < l -> shear_inputs test train targets ix nn m n b n -> all_neighbours nn b n -> stacked_noise noise km n d ->
  (forall p, (p < observed km * n)%nat -> 0 < d p) ->
  exists t t', shear_variance ls km l noise test train targets ix nn = Ok t /\ shape t = [b; 3; 3]%nat /\
    dense_variance ls' km nan noise test train targets l = Ok t' /\ shape t' = [3 * m; 3 * m]%nat /\
    forall x r o o', (x < b)%nat -> (o < 3)%nat -> (o' < 3)%nat -> selects m (at_ ix [x]) r ->
      at_ t [x; o; o'] = at_ t' [(o * m + r)%nat; (o' * m + r)%nat].
Proof.
  intros EX EX' km nan l noise d test train targets ix nn m n b Hl SI AN Hd Pd.
  assert (Hn : (0 < n)%nat) by (destruct SI; lia).
  destruct (shear_variance_ok ls EX km l noise d test train targets ix nn m n b n Hl SI Hd Pd) as (t & Et & St & Vt).
  destruct (dense_variance_ok ls' EX' km nan l noise d test train targets n m Hl Hn (si_test _ _ _ _ _ _ _ _ _ SI) (si_train _ _ _ _ _ _ _ _ _ SI)
    (si_targets _ _ _ _ _ _ _ _ _ SI) Hd Pd) as (t' & Et' & St' & Vt').
  exists t, t'. split; [exact Et|]. split; [exact St|]. split; [exact Et'|]. split; [exact St'|]. intros x r o o' Hx Ho Ho' Hr.
  destruct (AN x Hx) as (rows & SR & INJ).
  assert (PM : perm_on n rows) by (split; [intros i Hi; apply (SR i Hi)|exact INJ]).
  destruct (Vt x r rows o Hx Ho Hr SR) as [(w & W & V) _]. rewrite V by auto.
  destruct (Vt' r o r o' (proj1 Hr) Ho (proj1 Hr) Ho') as (w' & W' & ->). f_equal.
  apply (var_det km l noise d test train n rows Hl Hn PM Hd r o r o' w w' W W').
Qed.

(** ** Drawing from the prior *)
Lemma flat_kernel l (X : nd R) N : 0 < l -> (0 < N)%nat -> shape X = [N; 2]%nat ->
  exists diffs Kin flat, pairwise_tensor X (arange N) = Ok diffs /\ shear33_call l diffs false None = Ok Kin /\
    reshape (ndmap (Rmult 1) Kin) [3 * N; 3 * N]%nat = Ok flat /\ shape flat = [3 * N; 3 * N]%nat /\
    forall p q, (p < 3 * N)%nat -> (q < 3 * N)%nat -> at_ flat [p; q] = stacked_cov l 0 N (feature X) p q.
Proof.
  intros Hl HN SX. assert (D : dataset X N) by (right; exists 2%nat; exact SX).
  destruct (pairwise_all X N D) as (df & Ed & Sd & Vd). unfold feature_count in Sd, Vd. rewrite SX in Sd, Vd.
  destruct (entries33 l df [] N N Sd) as (full & Ef & Sf & Vf). cbn [app] in Sf.
  exists df, (squeeze full). unfold shear33_call, pick. rewrite Ef.
  assert (Q : exists flat, reshape (ndmap (Rmult 1) (squeeze full)) [3 * N; 3 * N]%nat = Ok flat /\
    forall p q, (p < 3 * N)%nat -> (q < 3 * N)%nat -> at_ flat [p; q] = at_ full [(p / N)%nat; (p mod N)%nat; (q / N)%nat; (q mod N)%nat]).
  { assert (B : forall p, (p < 3 * N)%nat -> (p / N < 3)%nat /\ (p mod N < N)%nat).
    { intros p Hp. split; [apply Nat.div_lt_upper_bound; lia|apply Nat.mod_upper_bound; lia]. }
    destruct (Nat.eq_dec N 1) as [->|N1].
    - destruct (reshape_ok (ndmap (Rmult 1) (squeeze full)) [3; 3]%nat) as [flat EF].
      { unfold ndmap, squeeze. cbn [shape]. rewrite Sf. reflexivity. }
      exists flat. split; [exact EF|]. intros p q Hp Hq. cbn [Nat.mul Nat.add] in *.
      rewrite (reshape_at _ flat [3; 3]%nat [p; q] [p; q] EF).
      + unfold ndmap, squeeze. cbn [at_ shape]. rewrite Sf. cbn [unsqueeze_idx Nat.eqb]. rewrite !Nat.div_1_r, !Nat.mod_1_r. ring.
      + unfold ndmap, squeeze. cbn [shape]. rewrite Sf. apply inb2; auto.
      + unfold ndmap, squeeze. cbn [shape]. rewrite Sf. reflexivity.
    - destruct (squeeze_none full) as [SS VS]. { rewrite Sf. cbn. intuition lia. }
      destruct (reshape_ok (ndmap (Rmult 1) (squeeze full)) [3 * N; 3 * N]%nat) as [flat EF].
      { unfold ndmap. cbn [shape]. rewrite SS, Sf. rewrite nprod2, !nprod_cons, nprod0. lia. }
      exists flat. split; [exact EF|]. intros p q Hp Hq. destruct (B p Hp) as [B1 B2]. destruct (B q Hq) as [B3 B4].
      rewrite (reshape_at _ flat [3 * N; 3 * N]%nat [(p / N)%nat; (p mod N)%nat; (q / N)%nat; (q mod N)%nat] [p; q] EF).
      + unfold ndmap. cbn [at_]. rewrite VS by (rewrite Sf; apply inb4; auto). ring.
      + unfold ndmap. cbn [shape]. rewrite SS, Sf. apply inb4; auto.
      + unfold ndmap. cbn [shape]. rewrite SS, Sf. cbn [ravel]. rewrite !nprod_cons, !nprod0.
        pose proof (Nat.div_mod p N). pose proof (Nat.div_mod q N). nia. }
  destruct Q as (flat & EF & VF). exists flat. split; [exact Ed|]. split; [reflexivity|]. split; [exact EF|].
  split; [apply (reshape_shape _ _ _ EF)|]. intros p q Hp Hq. rewrite VF by auto.
  assert (p / N < 3)%nat by (apply Nat.div_lt_upper_bound; lia). assert (q / N < 3)%nat by (apply Nat.div_lt_upper_bound; lia).
  assert (p mod N < N)%nat by (apply Nat.mod_upper_bound; lia). assert (q mod N < N)%nat by (apply Nat.mod_upper_bound; lia).
  pose proof (Vf [] (p / N)%nat (p mod N)%nat (q / N)%nat (q mod N)%nat) as V. cbn [app] in V. rewrite V by auto.
  rewrite !Vd by (auto; lia). unfold stacked_cov. cbn [Nat.add]. rewrite cov_closed by lra. reflexivity.
Qed.

Lemma targets_unfold ch X n l noise e N : N = (n ^ 2)%nat -> shape X = [N; 2]%nat ->
  targets_from_GP ch X n l noise e =
    (let! diffs := pairwise_tensor X (arange N) in
    let! Kin := shear33_call l diffs false None in
    let! flat := reshape (ndmap (Rmult 1) Kin) [3 * N; 3 * N]%nat in
    let! Kin_flat := bop Rplus flat (ndmap (Rmult noise) (eye (3 * N)%nat)) in
    let! L := np_cholesky ch Kin_flat in
    let! t := reshape (mkNd [3 * N]%nat (fun idx => match idx with
                         | [p] => rsum (3 * N)%nat (fun k => at_ L [p; k] * e k)
                         | _ => 0 end)) [3; N]%nat in
    Ok (swapaxes_last t)).
Proof. intros -> SX. unfold targets_from_GP. rewrite SX. reflexivity. Qed.

Lemma targets_moments ch : exact_cholesky ch -> forall X n l noise outcomes pi e, 0 < l -> 0 < noise -> (0 < n)%nat -> shape X = [n ^ 2; 2]%nat ->
  white outcomes pi (3 * n ^ 2) e ->
  exists y, (forall s, targets_from_GP ch X n l noise (e s) = Ok (y s) /\ shape (y s) = [n ^ 2; 3]%nat) /\
    forall i a j c, (i < n ^ 2)%nat -> (a < 3)%nat -> (j < n ^ 2)%nat -> (c < 3)%nat ->
      expect outcomes pi (fun s => at_ (y s) [i; a] * at_ (y s) [j; c]) = lensing_cov l noise X i a j c.
Proof.
  intros EX X n l noise outcomes pi e Hl Hv Hn SX W. assert (HN : (0 < n ^ 2)%nat) by (cbn; nia).
  remember (n ^ 2)%nat as N eqn:EN.
  destruct (flat_kernel l X N Hl HN SX) as (df & Kin & flat & E1 & E2 & E3 & SF & VF).
  destruct (bop_sq Rplus flat (ndmap (Rmult noise) (eye (3 * N))) (3 * N) SF eq_refl) as (Kf & E4 & S4 & V4).
  set (B := plus_diag (stacked_cov l 0 N (feature X)) (fun _ => noise)).
  assert (SB : symmetric (3 * N) B) by (apply plus_diag_sym, stacked_sym; lra).
  assert (PB : pd (3 * N) B) by (apply plus_diag_pd; auto; apply stacked_psd; auto).
  assert (EB : forall i j, (i < 3 * N)%nat -> (j < 3 * N)%nat -> slice2 Kf [] i j = B i j).
  { intros i j Hi Hj. unfold slice2, B, plus_diag. cbn [app]. rewrite V4, VF by auto. f_equal. cbn [at_ ndmap eye]. destruct (i =? j)%nat; ring. }
  destruct (proj1 (exact_ext ch EX (3 * N) (slice2 Kf []) B SB EB) PB) as (L & EL & F).
  pose proof (np_cholesky2 ch Kf (3 * N) S4) as EC. rewrite EL in EC.
  set (y := fun s => swapaxes_last (mkNd [3; N]%nat (fun idx => at_ (mkNd [3 * N]%nat (fun idx => match idx with
                         | [p] => rsum (3 * N)%nat (fun k => L p k * e s k)
                         | _ => 0 end)) (unravel [3 * N]%nat (ravel [3; N]%nat idx))))).
  assert (VY : forall s i a, (i < N)%nat -> (a < 3)%nat -> at_ (y s) [i; a] = rsum (3 * N) (fun k => L (a * N + i)%nat k * e s k)).
  { intros s i a Hi Ha. unfold y, swapaxes_last. cbn [at_ swap_last rev app ravel unravel].
    replace ((a * nprod [N] + (i * nprod [] + 0)) / nprod [])%nat with (a * N + i)%nat; [reflexivity|].
    rewrite nprod1, nprod0, Nat.div_1_r. lia. }
  exists y. split.
  - intros s. rewrite (targets_unfold ch X n l noise (e s) N EN SX), E1. cbn [bind]. rewrite E2. cbn [bind]. rewrite E3. cbn [bind].
    rewrite E4. cbn [bind]. rewrite EC. cbn [bind].
    unfold reshape at 1. cbn [shape]. rewrite nprod2, nprod1, Nat.eqb_refl. cbn [bind].
    split; [|reflexivity]. f_equal. unfold y. f_equal. f_equal. cbn [at_ rev app]. rewrite EL. reflexivity.
  - intros i a j c Hi Ha Hj Hc.
    rewrite (expect_ext outcomes pi _ (fun s => rsum (3 * N) (fun k => L (a * N + i)%nat k * e s k) * rsum (3 * N) (fun k => L (c * N + j)%nat k * e s k))).
    2:{ intros s Hs. rewrite !VY by auto. reflexivity. }
    rewrite (white_cov outcomes pi (3 * N) e L _ _ W). destruct F as (_ & _ & G). rewrite G by nia.
    unfold B, plus_diag, stacked_cov, lensing_cov. cbn [Nat.add].
    destruct (shift_div N a i HN) as [D1 M1]. destruct (shift_div N c j HN) as [D2 M2].
    rewrite D1, M1, D2, M2, (Nat.div_small i N), (Nat.mod_small i N), (Nat.div_small j N), (Nat.mod_small j N), !Nat.add_0_r by auto. f_equal.
    rewrite (block_eqb N (a * N + i) c j Hj), D1, M1, (Nat.div_small i N), (Nat.mod_small i N), Nat.add_0_r by auto. reflexivity.
Qed.

Lemma targets_wrong_count ch X n l noise e N : 0 < l -> (0 < N)%nat -> shape X = [N; 2]%nat -> N <> (n ^ 2)%nat ->
  targets_from_GP ch X n l noise e = Err ValueError.
Proof.
  intros Hl HN SX NE. unfold targets_from_GP. rewrite SX.
  destruct (flat_kernel l X N Hl HN SX) as (df & Kin & flat & E1 & E2 & E3 & SF & VF). rewrite E1. cbn [bind]. rewrite E2. cbn [bind].
  rewrite reshape_err; [reflexivity|]. intros E. unfold reshape in E3. destruct (Nat.eqb_spec (nprod [3 * N; 3 * N]%nat) (nprod (shape (ndmap (Rmult 1) Kin)))) as [E'|]; [|discriminate].
  rewrite <- E' in E. rewrite !nprod2 in E. apply NE. revert E. generalize (n ^ 2)%nat. intros. nia.
Qed.
