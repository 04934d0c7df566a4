(** Lemmas for C120. *)
From Coq Require Import Lia Lra Classical.
From Verif Require Import Base BaseFacts NdModel NdFacts RSum HyperModel NamedModel NamedSpec LinAlgModel LinAlgSpec LinAlgFacts Gauss
  GPModel NoiseModel MuyGPSModel GPSpec GPTheorems WellPosedProofs TensorModel TensorSpec TensorProofs KernelModel KernelSpec KernelProofs
  NeighborsModel NeighborsSpec NeighborsProofs FlowModel FlowSpec FlowProofs PointwiseSpec LibSpec LibProofs KernelPd
  MultiModel DriverModel WorkModel WorkSpec WorkProofs WorkLemmas BestSpec BestProofs SimProofs LocalSpec LocalProofs FarSpec FarProofs SmoothSpec SmoothProofs
  ContSpec ContProofs ContProofs2 LongSpec.
Local Open Scope R_scope.

Lemma ones_psd n : psd n (fun _ _ => 1).
Proof.
  intros v. unfold quad. replace (rsum n (fun i => rsum n (fun j => v i * 1 * v j))) with (rsum n v * rsum n v); [nra|].
  rewrite <- rsum_scal_r. apply rsum_ext. intros i Hi. rewrite <- rsum_scal. apply rsum_ext. intros; ring.
Qed.

Section Limit.
Variables (m : noise_model) (x n : nat).
Hypothesis P : forall i, (i < n)%nat -> 0 < noise_at m None x i.

Lemma precision_nonneg : 0 <= precision m x n.
Proof. apply rsum_nonneg. intros i Hi. left. apply Rinv_0_lt_compat, P, Hi. Qed.

Definition limw (j : nat) : R := / noise_at m None x j / (1 + precision m x n).

Lemma limw_solves : solves n (plus_diag (fun _ _ => 1) (noise_at m None x)) limw (fun _ => 1).
Proof.
  intros i Hi. pose proof precision_nonneg as PN. unfold plus_diag.
  rewrite (rsum_ext n _ (fun j => limw j + delta i j * (noise_at m None x j * limw j))).
  2:{ intros j Hj. unfold delta. destruct (Nat.eqb_spec i j); [subst|]; ring. }
  rewrite rsum_plus, rsum_delta_l by auto. unfold limw at 1. unfold Rdiv. rewrite rsum_scal_r. fold (precision m x n). unfold limw.
  pose proof (P i Hi). field. split; lra.
Qed.

Lemma limw_dot y : dot n limw y = weighted m x n y / (1 + precision m x n).
Proof.
  unfold dot, weighted, Rdiv. rewrite <- rsum_scal_r. apply rsum_ext. intros j Hj. unfold limw, Rdiv. ring.
Qed.
End Limit.

Section Long.
Variables (gamma : R -> R) (kv : R -> R -> R).
Variable ls : lsolver.
Hypothesis EX : exact_solver ls.
Variable knn : dict nnval -> list point -> point -> nat -> list (nat * R).
Variable hnsw : nnval -> list point -> point -> nat -> list (nat * R).
Variable dist : dict nnval -> point -> point -> R.
Hypothesis Hsk : sklearn_ok knn dist.

Lemma sdist_long F l v L : 0 < L -> (forall f, (f < F)%nat -> L <= l f) -> sdist F l v <= euclid F v (fun _ => 0) / L.
Proof.
  intros L0 B. pose proof (sdist_le F l L v (fun _ => 0) L0 B) as H. cbv beta in H.
  replace (sdist F l (fun f => v f - 0)) with (sdist F l v) in H; [exact H|].
  unfold sdist, scaled_sqdist. f_equal. apply rsum_ext. intros f Hf. f_equal. f_equal. ring.
Qed.

Lemma long_any en method kw w g K test train targets N M n ex :
  lower method = "exact"%string -> euclidean_kw kw -> nn_init en (rows_of train) n method kw = Ok w -> (0 < n <= N /\ 0 < M)%nat ->
  dataset test M -> dataset train N -> ndim test = ndim train -> feature_count test = feature_count train ->
  shape targets = N :: ex -> no_coincidence ex [n] ->
  shape (gp_Kout g) = [] -> at_ (gp_Kout g) [] = 1 -> 0 <= gp_var_scale g -> noise_fits (gp_noise g) M n ->
  (forall x i, (x < M)%nat -> (i < n)%nat -> 0 < noise_at (gp_noise g) None x i) ->
  exists q, (forall x, (x < M)%nat -> nearest_rows test train N x n (q x)) /\
  forall eps, 0 < eps -> exists L, 0 < L /\ forall cur,
    lk_ok K (feature_count train) cur [] -> (forall f, (f < feature_count train)%nat -> L <= scale_of (lk_def K) cur [] f) ->
    exists mean var,
      regress_any ls knn hnsw (Univariate (lib_model gamma kv g K cur)) test train w targets = Ok (mean, var) /\
      shape mean = M :: ex /\ shape var = [M] /\
      forall x, (x < M)%nat ->
        Rabs (at_ var [x] - gp_var_scale g / (1 + precision (gp_noise g) x n)) < eps /\
        forall e, inb ex e ->
          Rabs (at_ mean (x :: e) - weighted (gp_noise g) x n (fun j => at_ targets (q x j :: e)) / (1 + precision (gp_noise g) x n)) < eps.
Proof.
  intros Hm He Hi Hn D1 D2 ND FC HT NC SK K1 SC NF NP.
  assert (HnN : (n <= N)%nat) by lia.
  destruct (lookup_rows knn hnsw dist Hsk en method kw w test train N M n Hm He Hi Hn D1 D2 FC) as (I & D & EG & CW & IM & NRW).
  set (q := nbr knn hnsw w test) in *. exists q. split; [exact NRW|]. intros eps EPS. set (F := feature_count train) in *.
  assert (SN : sound_noise (gp_noise g) train N M n) by (left; exact NP).
  destruct (inb_bound (N :: ex) (at_ targets)) as (Y & Y0 & YB).
  set (m := gp_noise g) in *.
  assert (NU : exists nu, 0 < nu /\ noise_at_least m nu M n).
  { destruct (finite_gap M (fun x d => forall i, (i < n)%nat -> d <= noise_at m None x i)) as (nu & N0 & H).
    + intros x d d' H L i Hi0. specialize (H i Hi0). lra.
    + intros x Hx. apply (finite_gap n (fun i d => d <= noise_at m None x i)); [intros; lra|]. intros i Hi0. exists (noise_at m None x i). split; [apply NP; auto|lra].
    + exists nu. split; [exact N0|]. intros x i Hx Hi0. apply H; auto. }
  destruct NU as (nu & N0 & NL).
  set (A' := fun (t : (nat -> R) * (nat -> nat -> R)) x => nbr_matrix (lk_cov gamma kv K F (fst t) []) m train q x).
  set (k' := fun (t : (nat -> R) * (nat -> nat -> R)) x j => kcov (lk_cov gamma kv K F (fst t) []) test train x (q x j)).
  set (near := fun d (t : (nat -> R) * (nat -> nat -> R)) => 0 < d /\ lk_ok K F (fst t) [] /\ (forall f, (f < F)%nat -> / d <= scale_of (lk_def K) (fst t) [] f) /\
     forall x, (x < M)%nat -> solves n (A' t x) (snd t x) (k' t x)).
  assert (MON : forall d d' t, near d t -> d <= d' -> near d' t).
  { intros d d' t (H0 & H1 & H2 & H3) L. split; [lra|]. split; [exact H1|]. split; [|exact H3]. intros f Hf. specialize (H2 f Hf).
    eapply Rle_trans; [|exact H2]. apply Rinv_le_contravar; lra. }
  assert (TC : forall v, tends near (fun t => lk_cov gamma kv K F (fst t) [] v) 1).
  { intros v. set (fm := match K with LRbf _ => Infinite | LMatern _ _ p => formula_for p end).
    destruct (classic (fm = General)) as [G|G].
    { intros e0 _. exists 1. split; [lra|]. intros t (_ & (_ & _ & _ & O4) & _). exfalso. destruct K; [discriminate|]. apply (proj2 (proj2 O4)). exact G. }
    assert (CE : forall c0, lk_cov gamma kv K F c0 [] v = matern_value gamma kv fm 0 (sdist F (scale_of (lk_def K) c0 []) v)).
    { intros c0. destruct (lk_matern gamma kv K F c0 [] v) as (f & nu0 & -> & Ef). fold fm in Ef. rewrite Ef. apply matern_nu. exact G. }
    rewrite <- (matern_at_0 gamma kv fm 0 G).
    apply (tends_ext near MON (fun t => matern_value gamma kv fm 0 (sdist F (scale_of (lk_def K) (fst t) []) v)));
      [exists 1; split; [lra|]; intros; symmetry; apply CE|].
    apply (tends_matern near MON gamma kv fm 0 (fun _ => 0)); [exact G|].
    intros e0 E0. set (B := euclid F v (fun _ => 0)). assert (B0 : 0 <= B) by apply sqrt_pos.
    exists (e0 / (1 + B)). split; [apply Rmult_lt_0_compat; [exact E0|apply Rinv_0_lt_compat; lra]|].
    intros t (Hd & _ & H2 & _). rewrite Rminus_0_r, Rabs_right by (apply Rle_ge, sqrt_pos).
    eapply Rle_lt_trans; [apply (sdist_long F _ v (/ (e0 / (1 + B)))); [apply Rinv_0_lt_compat; exact Hd|exact H2]|]. fold B.
    unfold Rdiv at 1. rewrite Rinv_inv. apply Rmult_lt_reg_r with (1 + B); [lra|].
    replace (B * (e0 / (1 + B)) * (1 + B)) with (B * e0) by (field; lra). nra. }
  assert (TA : forall x i j, (x < M)%nat -> (i < n)%nat -> tends near (fun t => A' t x i j) (plus_diag (fun _ _ => 1) (noise_at m None x) i j)).
  { intros x i j Hx Hi0. unfold A', nbr_matrix, plus_diag. apply (tends_plus near MON); [apply TC|apply tends_const]. }
  assert (PX : forall x, (x < M)%nat -> forall i, (i < n)%nat -> 0 < noise_at m None x i) by (intros; apply NP; auto).
  assert (TW : forall x l, (x < M)%nat -> (l < n)%nat -> tends near (fun t => snd t x l) (limw m x n l)).
  { intros x l Hx Hl. apply (tends_solve near MON n (fun t => A' t x) (fun t => k' t x) (fun t => snd t x)
      (plus_diag (fun _ _ => 1) (noise_at m None x)) (fun _ => 1) (limw m x n) nu N0); auto.
    - apply coercive_diag; [apply ones_psd|]. intros i Hi0. apply NL; auto.
    - apply limw_solves. apply PX; auto.
    - intros i Hi0. apply TC.
    - exists 1. split; [lra|]. intros t (_ & _ & _ & H4). apply H4. exact Hx. }
  assert (TV : forall x, (x < M)%nat -> tends near (fun t => gp_var_scale g * (1 - dot n (snd t x) (k' t x))) (gp_var_scale g * (1 - dot n (limw m x n) (fun _ => 1)))).
  { intros x Hx. apply (tends_mult near MON); [apply tends_const|]. apply (tends_minus near MON); [apply tends_const|].
    unfold dot. apply (tends_rsum near MON n (fun i t => snd t x i * k' t x i)). intros i Hi0. apply (tends_mult near MON); [apply TW; auto|apply TC]. }
  set (eta := eps / (2 * (1 + INR n * Y))).
  assert (NY : 0 <= INR n * Y) by (apply Rmult_le_pos; [apply pos_INR|exact Y0]).
  assert (ETA : 0 < eta) by (apply Rmult_lt_0_compat; [exact EPS|apply Rinv_0_lt_compat; lra]).
  assert (EV : eventually near (fun t => forall x, (x < M)%nat ->
      Rabs (gp_var_scale g * (1 - dot n (snd t x) (k' t x)) - gp_var_scale g * (1 - dot n (limw m x n) (fun _ => 1))) < eps /\
      forall l, (l < n)%nat -> Rabs (snd t x l - limw m x n l) < eta)).
  { apply (ev_all near MON M). intros x Hx. apply (ev_and near MON); [apply TV; auto|].
    apply (ev_all near MON n (fun l t => Rabs (snd t x l - limw m x n l) < eta)). intros l Hl. apply TW; auto. }
  destruct EV as (d & Dp & EV). exists (/ d). split; [apply Rinv_0_lt_compat; exact Dp|]. intros cur OK LB.
  destruct (regress_any_nbr gamma kv ls EX knn hnsw dist Hsk en method kw w g K cur [] test train targets N M n ex)
    as (mean & var & E & S1 & S2 & NS & V); auto.
  exists mean, var. split; [exact E|]. split; [exact S1|]. split; [exact S2|]. fold q F m in V, NS.
  set (k := lk_cov gamma kv K F cur []) in *.
  set (u := fun x => gsol n (nbr_matrix k m train q x) (fun j => kcov k test train x (q x j))).
  assert (U : forall x, (x < M)%nat -> solves n (nbr_matrix k m train q x) (u x) (fun j => kcov k test train x (q x j)))
    by (intros x Hx; apply gsol_solves, NS; exact Hx).
  assert (NEAR : near d (cur, u)).
  { split; [exact Dp|]. split; [exact OK|]. split; [intros f Hf; apply LB; exact Hf|exact U]. }
  intros x Hx. destruct (EV _ NEAR x Hx) as [EV1 EV2]. cbn [fst snd] in EV1, EV2. unfold k' in EV1. cbn [fst snd] in EV1. fold k in EV1.
  destruct (V x Hx) as (NR & Mx & (wv & W & EVr) & _). pose proof (precision_nonneg m x n (PX x Hx)) as PN.
  assert (LD : dot n (limw m x n) (fun _ => 1) = precision m x n / (1 + precision m x n)).
  { rewrite limw_dot. f_equal. apply rsum_ext. intros j Hj. unfold Rdiv. ring. }
  split.
  - rewrite EVr. rewrite LD in EV1. replace (gp_var_scale g / (1 + precision m x n)) with (gp_var_scale g * (1 - precision m x n / (1 + precision m x n))) by (field; lra).
    replace (dot n wv (fun j => kcov k test train x (q x j))) with (dot n (u x) (fun j => kcov k test train x (q x j))); [exact EV1|].
    apply rsum_ext. intros j Hj. rewrite (solves_unique n _ (u x) wv _ (NS x Hx) (U x Hx) W j Hj). reflexivity.
  - intros e Hie. destruct (Mx e Hie) as (a & SA & ->). rewrite <- limw_dot.
    unfold dot. rewrite <- rsum_minus. eapply Rle_lt_trans; [apply rsum_abs|].
    apply Rle_lt_trans with (rsum n (fun _ => eta * Y)).
    + apply rsum_le. intros j Hj. rewrite (solves_unique n _ a (u x) _ (NS x Hx) SA (U x Hx) j Hj).
      replace (u x j * at_ targets (q x j :: e) - limw m x n j * at_ targets (q x j :: e)) with ((u x j - limw m x n j) * at_ targets (q x j :: e)) by ring.
      rewrite Rabs_mult. apply Rmult_le_compat; try apply Rabs_pos; [left; apply EV2; exact Hj|]. apply YB, inb_cons. split; [apply NR; exact Hj|exact Hie].
    + rewrite rsum_const. unfold eta. apply Rmult_lt_reg_r with (2 * (1 + INR n * Y)); [lra|].
      replace (INR n * (eps / (2 * (1 + INR n * Y)) * Y) * (2 * (1 + INR n * Y))) with (eps * (INR n * Y)) by (field; lra). nra.
Qed.

Lemma sqdist_apart F x y : ~ (forall f, (f < F)%nat -> x f = y f) -> 0 < euclid F x y.
Proof.
  intros N. unfold euclid. apply sqrt_lt_R0. unfold sqdist.
  assert (NN : 0 <= rsum F (fun f => (x f - y f) ^ 2)) by (apply rsum_nonneg; intros; apply pow2_ge_0).
  destruct (Req_dec (rsum F (fun f => (x f - y f) ^ 2)) 0) as [Z|Z]; [|lra]. exfalso. apply N. intros f Hf.
  pose proof (rsum_term_le F (fun f => (x f - y f) ^ 2) f (fun i _ => pow2_ge_0 _) Hf) as T. cbn beta in T. pose proof (pow2_ge_0 (x f - y f)).
  assert (E : (x f - y f) ^ 2 = 0) by lra. replace ((x f - y f) ^ 2) with ((x f - y f) * (x f - y f)) in E by ring.
  apply Rmult_integral in E. destruct E; lra.
Qed.

Lemma short_any en method kw w g K test train targets N M n ex :
  lower method = "exact"%string -> euclidean_kw kw -> nn_init en (rows_of train) n method kw = Ok w -> (0 < n <= N /\ 0 < M)%nat ->
  dataset test M -> dataset train N -> ndim test = ndim train -> feature_count test = feature_count train ->
  shape targets = N :: ex -> no_coincidence ex [n] ->
  shape (gp_Kout g) = [] -> at_ (gp_Kout g) [] = 1 -> 0 <= gp_var_scale g -> noise_fits (gp_noise g) M n ->
  (forall x i, (x < M)%nat -> (i < n)%nat -> 0 < noise_at (gp_noise g) None x i) ->
  forall eps, 0 < eps -> exists L, 0 < L /\ forall cur,
    lk_ok K (feature_count train) cur [] -> (forall f, (f < feature_count train)%nat -> scale_of (lk_def K) cur [] f <= L) ->
    exists mean var,
      regress_any ls knn hnsw (Univariate (lib_model gamma kv g K cur)) test train w targets = Ok (mean, var) /\
      forall x, (x < M)%nat -> (forall a, (a < N)%nat -> ~ same_row test train x a) ->
        Rabs (at_ var [x] - gp_var_scale g) < eps /\ forall e, inb ex e -> Rabs (at_ mean (x :: e)) < eps.
Proof.
  intros Hm He Hi Hn D1 D2 ND FC HT NC SK K1 SC NF NP eps EPS. set (m := gp_noise g) in *.
  assert (NU : exists nu, 0 < nu /\ noise_at_least m nu M n).
  { destruct (finite_gap M (fun x d => forall i, (i < n)%nat -> d <= noise_at m None x i)) as (nu & N0 & H).
    + intros x d d' H L i Hi0. specialize (H i Hi0). lra.
    + intros x Hx. apply (finite_gap n (fun i d => d <= noise_at m None x i)); [intros; lra|]. intros i Hi0. exists (noise_at m None x i). split; [apply NP; auto|lra].
    + exists nu. split; [exact N0|]. intros x i Hx Hi0. apply H; auto. }
  destruct NU as (nu & N0 & NL).
  destruct (inb_bound (N :: ex) (at_ targets)) as (Y & Y0 & YB).
  destruct (finite_gap M (fun x d => (forall a, (a < N)%nat -> ~ same_row test train x a) -> far_from test train N x d)) as (D & DP & HD).
  { intros x d d' H L NS a Ha. specialize (H NS a Ha). lra. }
  { intros x Hx. destruct (classic (forall a, (a < N)%nat -> ~ same_row test train x a)) as [NS|NS].
    - destruct (finite_gap N (fun a d => d <= euclid (feature_count train) (feature test x) (feature train a))) as (d & D0 & H); [intros; lra| |].
      + intros a Ha. exists (euclid (feature_count train) (feature test x) (feature train a)). split; [|lra]. apply sqdist_apart. exact (NS a Ha).
      + exists d. split; [exact D0|]. intros _ a Ha. apply H; auto.
    - exists 1. split; [lra|]. intros C. contradiction. }
  set (B1 := 6 * INR n * Y / (D * nu)). set (B2 := gp_var_scale g * (36 * INR n / (D ^ 2 * nu))).
  assert (P1 : 0 < D * nu) by (apply Rmult_lt_0_compat; lra). assert (P2 : 0 < D ^ 2 * nu) by (apply Rmult_lt_0_compat; [apply pow_lt; lra|lra]).
  assert (Nn : 0 <= INR n) by apply pos_INR.
  assert (B10 : 0 <= B1). { unfold B1, Rdiv. apply Rmult_le_pos; [|left; apply Rinv_0_lt_compat; exact P1]. apply Rmult_le_pos; [|exact Y0]. lra. }
  assert (B20 : 0 <= B2). { unfold B2, Rdiv. apply Rmult_le_pos; [exact SC|]. apply Rmult_le_pos; [lra|left; apply Rinv_0_lt_compat; exact P2]. }
  set (L := Rmin 1 (eps / (1 + B1 + B2))).
  assert (Q : 0 < eps / (1 + B1 + B2)) by (apply Rmult_lt_0_compat; [exact EPS|apply Rinv_0_lt_compat; lra]).
  assert (L0 : 0 < L) by (apply Rmin_glb_lt; lra).
  assert (L1 : L <= 1) by apply Rmin_l.
  assert (L2 : L * (1 + B1 + B2) <= eps).
  { apply Rle_trans with (eps / (1 + B1 + B2) * (1 + B1 + B2)); [apply Rmult_le_compat_r; [lra|apply Rmin_r]|]. right. field. lra. }
  exists L. split; [exact L0|]. intros cur OK LB.
  destruct (far_rate gamma kv ls EX knn hnsw dist Hsk en method kw w g K cur test train targets N M n ex nu L Y) as (mean & var & E & H); auto.
  { intros a e Ha Hie. apply YB, inb_cons. auto. }
  exists mean, var. split; [exact E|]. intros x Hx NS. destruct (H x D Hx DP (HD x Hx NS)) as [[V1 V2] HM].
  assert (LL : L * L <= L) by nra.
  split.
  - rewrite Rabs_left1 by lra. 
    assert (X : gp_var_scale g * (1 - 36 * L ^ 2 * INR n / (D ^ 2 * nu)) = gp_var_scale g - (L * L) * B2) by (unfold B2; field; split; lra).
    rewrite X in V1. nra.
  - intros e Hie. eapply Rle_lt_trans; [apply HM; exact Hie|].
    replace (6 * L * INR n * Y / (D * nu)) with (L * B1) by (unfold B1; field; split; lra). nra.
Qed.
End Long.
