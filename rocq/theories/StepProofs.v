(** Lemmas for C119. *)
From Coq Require Import Lia Lra.
From Verif Require Import Base BaseFacts NdModel NdFacts RSum HyperModel NamedModel NamedSpec LinAlgModel LinAlgSpec LinAlgFacts Gauss
  GPModel NoiseModel GPProofs MuyGPSModel GPSpec MuyGPSProofs GPTheorems WellPosedProofs TensorModel TensorSpec TensorProofs KernelModel KernelSpec
  NeighborsModel NeighborsSpec NeighborsProofs FlowModel FlowSpec FlowProofs FlowLemmas PointwiseSpec LibSpec LibProofs
  MultiModel DriverModel WorkModel WorkSpec WorkProofs WorkLemmas BestSpec BestProofs DupProofs StepSpec.
Local Open Scope R_scope.

(** ** One more row and column *)
Lemma dot_S n x y : dot (S n) x y = dot n x y + x n * y n.
Proof. reflexivity. Qed.

Section Border.
Variables (w : nat) (A B : nat -> nat -> R) (k k' ka al be ga : nat -> R).
Hypothesis SA : symmetric w A.
Hypothesis NA : nonsingular w A.
Hypothesis PB : pd (S w) B.
Hypothesis BA : forall i j, (i < w)%nat -> (j < w)%nat -> B i j = A i j.
Hypothesis B1 : forall i, (i < w)%nat -> B i w = ka i.
Hypothesis B2 : forall j, (j < w)%nat -> B w j = ka j.
Hypothesis KK : forall i, (i < w)%nat -> k' i = k i.
Hypothesis Ha : solves w A al k.
Hypothesis Hb : solves w A be ka.
Hypothesis Hg : solves (S w) B ga k'.

Definition schur : R := B w w - dot w be ka.

Lemma schur_pos : 0 < schur.
Proof.
  set (z := fun i => if (i <? w)%nat then - be i else 1).
  assert (Zl : forall i, (i < w)%nat -> z i = - be i) by (intros i Hi; unfold z; destruct (Nat.ltb_spec i w); [reflexivity|lia]).
  assert (Zw : z w = 1) by (unfold z; rewrite Nat.ltb_irrefl; reflexivity).
  assert (P : 0 < quad (S w) B z) by (apply PB; exists w; split; [lia|rewrite Zw; lra]).
  assert (SZ : solves (S w) B z (fun i => if (i =? w)%nat then schur else 0)).
  { intros i Hi. cbn [rsum]. rewrite Zw. destruct (Nat.eqb_spec i w) as [->|Ne].
    - rewrite (rsum_ext w _ (fun j => -1 * (be j * ka j))) by (intros j Hj; rewrite Zl, B2 by auto; ring). rewrite rsum_scal. unfold schur, dot. ring.
    - assert (Hi' : (i < w)%nat) by lia.
      rewrite (rsum_ext w _ (fun j => -1 * (A i j * be j))) by (intros j Hj; rewrite Zl, BA by auto; ring).
      rewrite rsum_scal, (Hb i Hi'), B1 by auto. ring. }
  rewrite (quad_solves (S w) B z _ SZ) in P. rewrite dot_S, Zw, Nat.eqb_refl in P.
  unfold dot in P. rewrite (rsum_ext w _ (fun _ => 0)) in P.
  - rewrite rsum_0 in P. lra.
  - intros i Hi. destruct (Nat.eqb_spec i w); [lia|ring].
Qed.

Lemma border_old i : (i < w)%nat -> ga i = al i - ga w * be i.
Proof.
  intros Hi. pose proof (solves_unique w A (fun j => ga j + ga w * be j) al k NA) as U.
  assert (E : ga i + ga w * be i = al i); [|lra]. apply U; [|exact Ha|exact Hi]. clear U. intros r Hr.
  pose proof (Hg r ltac:(lia)) as G. cbn [rsum] in G. rewrite KK, B1 in G by auto. rewrite <- G.
  rewrite (rsum_ext w _ (fun j => A r j * ga j + ga w * (A r j * be j))) by (intros; ring).
  rewrite rsum_plus, rsum_scal, (Hb r Hr). rewrite (rsum_ext w (fun j => B r j * ga j) (fun j => A r j * ga j)); [ring|].
  intros j Hj. rewrite BA by auto. reflexivity.
Qed.

Lemma border_new : ga w * schur = k' w - dot w al ka.
Proof.
  pose proof (Hg w ltac:(lia)) as G. cbn [rsum] in G. rewrite <- G.
  rewrite (rsum_ext w _ (fun j => al j * ka j + (- ga w) * (be j * ka j))) by (intros j Hj; rewrite B2, border_old by auto; ring).
  rewrite rsum_plus, rsum_scal. unfold schur, dot. ring.
Qed.

Lemma border_dot (y : nat -> R) : dot (S w) ga y = dot w al y + ga w * (y w - dot w be y).
Proof.
  rewrite dot_S. unfold dot. rewrite (rsum_ext w _ (fun j => al j * y j + (- ga w) * (be j * y j))) by (intros j Hj; rewrite border_old by auto; ring).
  rewrite rsum_plus, rsum_scal. ring.
Qed.

Lemma border_var : dot (S w) ga k' = dot w al k + ga w ^ 2 * schur.
Proof.
  rewrite border_dot.
  assert (E : dot w be k' = dot w al ka).
  { transitivity (dot w be k); [apply rsum_ext; intros; rewrite KK by auto; reflexivity|].
    rewrite (symmetric_adjoint w A al be k ka SA Ha Hb). apply rsum_ext; intros; ring. }
  assert (E2 : dot w al k' = dot w al k) by (apply rsum_ext; intros; rewrite KK by auto; reflexivity).
  rewrite E, E2. pose proof border_new as N. transitivity (dot w al k + ga w * (ga w * schur)); [rewrite N; ring|ring].
Qed.
End Border.

Section Step.
Variables (gamma : R -> R) (kv : R -> R -> R) (ls : lsolver).
Hypothesis EX : exact_solver ls.

Lemma kcov_same K F cur kw X Y x y Z z : feature_count Y = F -> same_row X Y x y ->
  kcov (lk_cov gamma kv K F cur kw) X Z x z = kcov (lk_cov gamma kv K F cur kw) Y Z y z.
Proof. intros HF SR. unfold kcov. apply lk_cov_ext. intros f Hf. rewrite (SR f); [reflexivity|lia]. Qed.

Lemma added g g' K cur nn nn' test train arrived targets N M w q q' ex :
  lk_ok K (feature_count train) cur [] -> dataset test M -> dataset train N -> ndim test = ndim train ->
  feature_count test = feature_count train -> shape arrived = shape test -> shape targets = N :: ex ->
  no_coincidence ex [w] -> no_coincidence ex [S w] ->
  shape (gp_Kout g) = [] -> at_ (gp_Kout g) [] = 1 -> shape (gp_Kout g') = [] -> at_ (gp_Kout g') [] = 1 ->
  0 <= gp_var_scale g -> gp_var_scale g' = gp_var_scale g ->
  index_matrix nn M w N q -> index_matrix nn' M (S w) N q' -> one_more w q q' M -> arrivals arrived train q' w M ->
  noise_fits (gp_noise g) M w -> noise_fits (gp_noise g') M (S w) -> noise_extends (gp_noise g) (gp_noise g') M w ->
  well_posed (gp_noise g) train M w q -> well_posed (gp_noise g') train M (S w) q' ->
  exists mean var mean_a var_a mean' var',
    regress_from_indices ls (lib_model gamma kv g K cur) (arange M) nn test train targets = Ok (mean, var) /\
    regress_from_indices ls (lib_model gamma kv g K cur) (arange M) nn arrived train targets = Ok (mean_a, var_a) /\
    regress_from_indices ls (lib_model gamma kv g' K cur) (arange M) nn' test train targets = Ok (mean', var') /\
    shape mean' = shape mean /\ shape var' = shape var /\
    forall x, (x < M)%nat -> exists c v,
      remaining_covariance (lk_cov gamma kv K (feature_count train) cur []) (gp_noise g) test train w x q (q' x w) c /\
      at_ var_a [x] = gp_var_scale g * v /\ 0 < v + noise_at (gp_noise g') None x w /\
      (forall e, inb ex e -> at_ mean' (x :: e) =
         at_ mean (x :: e) + c / (v + noise_at (gp_noise g') None x w) * (at_ targets (q' x w :: e) - at_ mean_a (x :: e))) /\
      at_ var' [x] = at_ var [x] - gp_var_scale g * (c ^ 2 / (v + noise_at (gp_noise g') None x w)).
Proof.
  intros OK D1 D2 ND FC SA HT NC NC' SK K1 SK' K1' SC SC' IM IM' OM AR NF NF' NE WP WP'.
  assert (DA : dataset arrived M) by (unfold dataset in *; rewrite SA; exact D1).
  assert (NDA : ndim arrived = ndim train) by (unfold ndim in *; rewrite SA; exact ND).
  assert (FCA : feature_count arrived = feature_count train) by (unfold feature_count in *; rewrite SA; exact FC).
  destruct (regress_indices gamma kv ls EX g K cur [] nn test train targets N M w q ex) as (mean & var & E1 & S1 & S2 & V1); auto.
  destruct (regress_indices gamma kv ls EX g K cur [] nn arrived train targets N M w q ex) as (mean_a & var_a & E2 & _ & _ & V2); auto.
  destruct (regress_indices gamma kv ls EX g' K cur [] nn' test train targets N M (S w) q' ex) as (mean' & var' & E3 & S3 & S4 & V3); auto; [lra|].
  exists mean, var, mean_a, var_a, mean', var'. repeat (split; [first [exact E1|exact E2|exact E3|congruence]|]). intros x Hx.
  set (kf := lk_cov gamma kv K (feature_count train) cur []) in *.
  destruct (V1 x Hx) as (A1 & (al & Hal & Eal) & _). destruct (V2 x Hx) as (A2 & (be & Hbe & Ebe) & _).
  destruct (V3 x Hx) as (A3 & (ga & Hga & Ega) & _).
  set (a := q' x w). set (A := nbr_matrix kf (gp_noise g) train q x) in *. set (B := nbr_matrix kf (gp_noise g') train q' x) in *.
  set (k := fun j => kcov kf test train x (q x j)) in *. set (k' := fun j => kcov kf test train x (q' x j)) in *.
  set (ka := fun j => kcov kf train train a (q x j)).
  assert (KA : forall j, kcov kf arrived train x (q x j) = ka j).
  { intros j. unfold ka, kf. apply kcov_same; auto. exact (AR x Hx). }
  assert (Hbe' : solves w A be ka) by (intros i Hi; rewrite <- KA; apply Hbe; exact Hi).
  assert (SYA : symmetric w A) by apply nbr_sym.
  assert (NSA : nonsingular w A) by (apply (well_posed_ns gamma kv K cur [] (gp_noise g) train M w q); auto).
  assert (PDB : pd (S w) B) by (apply (nbr_pd gamma kv K cur [] (gp_noise g') train M (S w) q'); auto).
  assert (BA : forall i j, (i < w)%nat -> (j < w)%nat -> B i j = A i j).
  { intros i j Hi Hj. unfold A, B, nbr_matrix, plus_diag. rewrite !OM, NE by auto. reflexivity. }
  assert (B1 : forall i, (i < w)%nat -> B i w = ka i).
  { intros i Hi. unfold B, nbr_matrix, plus_diag. destruct (Nat.eqb_spec i w); [lia|]. rewrite OM by auto.
    rewrite Rplus_0_r. apply lk_cov_sym. }
  assert (B2 : forall j, (j < w)%nat -> B w j = ka j).
  { intros j Hj. unfold B, nbr_matrix, plus_diag. destruct (Nat.eqb_spec w j); [lia|]. rewrite (OM x j) by auto. rewrite Rplus_0_r. reflexivity. }
  assert (BW : B w w = 1 + noise_at (gp_noise g') None x w).
  { unfold B, nbr_matrix, plus_diag. rewrite Nat.eqb_refl. unfold kf. rewrite (self_cov gamma kv K _ cur [] train _ OK). ring. }
  assert (KK : forall i, (i < w)%nat -> k' i = k i) by (intros i Hi; unfold k, k'; rewrite OM by auto; reflexivity).
  pose proof (schur_pos w A B ka be PDB BA B1 B2 Hbe') as SP.
  pose proof (border_new w A B k k' ka al be ga NSA BA B1 B2 KK Hal Hbe' Hga) as BN.
  pose proof (border_var w A B k k' ka al be ga SYA NSA BA B1 B2 KK Hal Hbe' Hga) as BV.
  pose proof (border_dot w A B k k' ka al be ga NSA BA B1 KK Hal Hbe' Hga) as BD.
  unfold schur in SP, BN, BV. rewrite BW in SP, BN, BV.
  exists (k' w - dot w al ka), (1 - dot w be ka).
  split; [exists al; split; [exact Hal|reflexivity]|].
  split. { rewrite Ebe. f_equal. f_equal. apply rsum_ext. intros j Hj. rewrite KA. reflexivity. }
  set (s := 1 - dot w be ka + noise_at (gp_noise g') None x w) in *.
  assert (SE : 1 + noise_at (gp_noise g') None x w - dot w be ka = s) by (unfold s; ring). rewrite SE in SP, BN, BV.
  assert (GW : ga w = (k' w - dot w al ka) / s) by (rewrite <- BN; field; lra).
  split; [exact SP|]. split.
  - intros e He.
    assert (M1 : at_ mean (x :: e) = dot w al (fun j => at_ targets (q x j :: e))).
    { destruct (A1 e He) as (al' & Hal' & ->). apply rsum_ext. intros j Hj. rewrite (solves_unique w A al' al k NSA Hal' Hal j Hj). reflexivity. }
    assert (M2 : at_ mean_a (x :: e) = dot w be (fun j => at_ targets (q x j :: e))).
    { destruct (A2 e He) as (be' & Hbe2 & ->). apply rsum_ext. intros j Hj. rewrite (solves_unique w A be' be _ NSA Hbe2 Hbe j Hj). reflexivity. }
    assert (M3 : at_ mean' (x :: e) = dot (S w) ga (fun j => at_ targets (q' x j :: e))).
    { destruct (A3 e He) as (ga' & Hga2 & ->). apply rsum_ext. intros j Hj.
      rewrite (solves_unique (S w) B ga' ga _ (pd_nonsingular _ _ PDB) Hga2 Hga j Hj). reflexivity. }
    rewrite M3, BD, GW, M1, M2.
    assert (X1 : dot w al (fun j => at_ targets (q' x j :: e)) = dot w al (fun j => at_ targets (q x j :: e)))
      by (apply rsum_ext; intros j Hj; rewrite OM by auto; reflexivity).
    assert (X2 : dot w be (fun j => at_ targets (q' x j :: e)) = dot w be (fun j => at_ targets (q x j :: e)))
      by (apply rsum_ext; intros j Hj; rewrite OM by auto; reflexivity).
    rewrite X1, X2. reflexivity.
  - rewrite Ega, Eal, SC', BV, GW. field. lra.
Qed.

(** The algebra of one step, for any listing of the neighbours. *)
Lemma one_step K cur m test train w q x t al ga (y : nat -> R) : lk_ok K (feature_count train) cur [] ->
  let k := lk_cov gamma kv K (feature_count train) cur [] in
  well_posed m train t w q -> well_posed m train t (S w) q -> (x < t)%nat ->
  solves w (nbr_matrix k m train q x) al (fun j => kcov k test train x (q x j)) ->
  solves (S w) (nbr_matrix k m train q x) ga (fun j => kcov k test train x (q x j)) ->
  exists c v m_a,
    remaining_covariance k m test train w x q (q x w) c /\
    (exists be, solves w (nbr_matrix k m train q x) be (fun j => kcov k train train (q x w) (q x j)) /\
       v = 1 - dot w be (fun j => kcov k train train (q x w) (q x j)) /\ m_a = dot w be) /\
    0 < v + noise_at m None x w /\
    dot (S w) ga y = dot w al y + c / (v + noise_at m None x w) * (y w - m_a y) /\
    1 - dot (S w) ga (fun j => kcov k test train x (q x j)) =
      1 - dot w al (fun j => kcov k test train x (q x j)) - c ^ 2 / (v + noise_at m None x w).
Proof.
  intros OK k WP WP' Ht Hal Hga.
  set (a := q x w). set (A := nbr_matrix k m train q x) in *. set (kx := fun j => kcov k test train x (q x j)) in *.
  set (ka := fun j => kcov k train train a (q x j)).
  assert (SYA : symmetric w A) by apply nbr_sym.
  assert (PDA : pd w A) by (apply (nbr_pd gamma kv K cur [] m train t w q); auto).
  assert (NSA : nonsingular w A) by (apply pd_nonsingular; exact PDA).
  assert (PDB : pd (S w) A) by (apply (nbr_pd gamma kv K cur [] m train t (S w) q); auto).
  destruct (ginv_complete w A NSA) as (gi & Egi). destruct (ginv_sound w A gi Egi) as [Gi _]. set (be := gi ka). pose proof (Gi ka) as Hbe. fold be in Hbe.
  assert (B1 : forall i, (i < w)%nat -> A i w = ka i).
  { intros i Hi. unfold A, nbr_matrix, plus_diag. destruct (Nat.eqb_spec i w); [lia|]. rewrite Rplus_0_r. apply lk_cov_sym. }
  assert (B2 : forall j, (j < w)%nat -> A w j = ka j).
  { intros j Hj. unfold A, nbr_matrix, plus_diag. destruct (Nat.eqb_spec w j); [lia|]. rewrite Rplus_0_r. reflexivity. }
  assert (BW : A w w = 1 + noise_at m None x w).
  { unfold A, nbr_matrix, plus_diag. rewrite Nat.eqb_refl. unfold k. rewrite (self_cov gamma kv K _ cur [] train _ OK). ring. }
  pose proof (schur_pos w A A ka be PDB ltac:(auto) B1 B2 Hbe) as SP.
  pose proof (border_new w A A kx kx ka al be ga NSA ltac:(auto) B1 B2 ltac:(auto) Hal Hbe Hga) as BN.
  pose proof (border_var w A A kx kx ka al be ga SYA NSA ltac:(auto) B1 B2 ltac:(auto) Hal Hbe Hga) as BV.
  pose proof (border_dot w A A kx kx ka al be ga NSA ltac:(auto) B1 ltac:(auto) Hal Hbe Hga) as BD.
  unfold schur in SP, BN, BV. rewrite BW in SP, BN, BV.
  exists (kx w - dot w al ka), (1 - dot w be ka), (dot w be).
  split; [exists al; split; [exact Hal|reflexivity]|]. split; [exists be; split; [exact Hbe|split; reflexivity]|].
  set (s := 1 - dot w be ka + noise_at m None x w) in *.
  assert (SE : 1 + noise_at m None x w - dot w be ka = s) by (unfold s; ring). rewrite SE in SP, BN, BV.
  assert (GW : ga w = (kx w - dot w al ka) / s) by (rewrite <- BN; field; lra).
  split; [exact SP|]. split; [rewrite BD, GW; reflexivity|]. rewrite BV, GW. field. lra.
Qed.

Section Lookup.
Variable knn : dict nnval -> list point -> point -> nat -> list (nat * R).
Variable hnsw : nnval -> list point -> point -> nat -> list (nat * R).
Variable dist : dict nnval -> point -> point -> R.
Hypothesis Hsk : sklearn_ok knn dist.

Lemma added_any en method kw lu en' method' kw' lu' g K cur test train targets N M n ex :
  lower method = "exact"%string -> euclidean_kw kw -> nn_init en (rows_of train) n method kw = Ok lu ->
  lower method' = "exact"%string -> euclidean_kw kw' -> nn_init en' (rows_of train) (S n) method' kw' = Ok lu' -> (0 < n /\ S n <= N /\ 0 < M)%nat ->
  dataset test M -> dataset train N -> ndim test = ndim train -> feature_count test = feature_count train ->
  lk_ok K (feature_count train) cur [] -> shape targets = N :: ex -> no_coincidence ex [n] -> no_coincidence ex [S n] ->
  shape (gp_Kout g) = [] -> at_ (gp_Kout g) [] = 1 -> 0 <= gp_var_scale g ->
  uniform_noise (gp_noise g) -> sound_noise (gp_noise g) train N M (S n) ->
  exists mean var mean' var',
    regress_any ls knn hnsw (Univariate (lib_model gamma kv g K cur)) test train lu targets = Ok (mean, var) /\
    regress_any ls knn hnsw (Univariate (lib_model gamma kv g K cur)) test train lu' targets = Ok (mean', var') /\
    shape mean' = shape mean /\ shape var' = shape var /\
    forall x, (x < M)%nat -> no_ties test train N x -> exists q c v (m_a : (nat -> R) -> R),
      let k := lk_cov gamma kv K (feature_count train) cur [] in
      nearest_rows test train N x (S n) q /\
      remaining_covariance k (gp_noise g) test train n x (fun _ => q) (q n) c /\
      (exists be, solves n (nbr_matrix k (gp_noise g) train (fun _ => q) x) be (fun j => kcov k train train (q n) (q j)) /\
         v = 1 - dot n be (fun j => kcov k train train (q n) (q j)) /\ m_a = dot n be) /\
      0 < v + noise_at (gp_noise g) None x n /\
      (forall e, inb ex e -> at_ mean' (x :: e) = at_ mean (x :: e) +
         c / (v + noise_at (gp_noise g) None x n) * (at_ targets (q n :: e) - m_a (fun j => at_ targets (q j :: e)))) /\
      at_ var' [x] = at_ var [x] - gp_var_scale g * (c ^ 2 / (v + noise_at (gp_noise g) None x n)).
Proof.
  intros Hm He Hi Hm' He' Hi' Hn D1 D2 ND FC OK HT NC NC' SK K1 SC U SN'.
  assert (SN : sound_noise (gp_noise g) train N M n).
  { destruct SN' as [P|[P D]]; [left|right; split; [|exact D]]; intros x i Hx Hi0; apply P; auto; lia. }
  destruct (regress_any_nbr gamma kv ls EX knn hnsw dist Hsk en method kw lu g K cur [] test train targets N M n ex)
    as (mean & var & E & S1 & S2 & NS & V); auto; [lia|apply uniform_fits; auto|].
  destruct (regress_any_nbr gamma kv ls EX knn hnsw dist Hsk en' method' kw' lu' g K cur [] test train targets N M (S n) ex)
    as (mean' & var' & E' & S3 & S4 & NS' & V'); auto; [lia|apply uniform_fits; auto|].
  exists mean, var, mean', var'. split; [exact E|]. split; [exact E'|]. split; [congruence|]. split; [congruence|]. intros x Hx NT.
  destruct (V x Hx) as (A & AM & (u & SO & EV) & _). destruct (V' x Hx) as (A' & AM' & (u' & SO' & EV') & _).
  set (k := lk_cov gamma kv K (feature_count train) cur []) in *.
  set (q := nbr knn hnsw lu' test x). set (qo := nbr knn hnsw lu test x) in *.
  assert (QQ : forall j, (j < n)%nat -> qo j = q j).
  { apply (nearest_unique test train N x n qo q NT A). apply (nearest_prefix test train N x n (S n)); [lia|exact A']. }
  assert (WPx : forall m', (m' <= S n)%nat -> well_posed (gp_noise g) train M m' (fun _ => q)).
  { intros m' Hm2. intros z Hz. destruct SN' as [P|[P D]]; [left; intros; apply P; auto; lia|right].
    split; [intros; apply P; auto; lia|]. destruct A' as (B1 & B2 & _).
    intros i j Hi0 Hj0 Ne. apply D; try (apply B1; lia). intros Q. apply Ne. apply B2; auto; lia. }
  assert (MX : forall i j, (i < n)%nat -> (j < n)%nat -> nbr_matrix k (gp_noise g) train (nbr knn hnsw lu test) x i j = nbr_matrix k (gp_noise g) train (fun _ => q) x i j).
  { intros i j Hi0 Hj0. unfold nbr_matrix, plus_diag. fold qo. rewrite !QQ by auto. reflexivity. }
  assert (SO2 : solves n (nbr_matrix k (gp_noise g) train (fun _ => q) x) u (fun j => kcov k test train x (q j))).
  { apply (solves_ext n (nbr_matrix k (gp_noise g) train (nbr knn hnsw lu test) x)); [exact MX|]. intros i Hi0. rewrite (SO i Hi0). fold qo. rewrite QQ by auto. reflexivity. }
  assert (SO3 : solves (S n) (nbr_matrix k (gp_noise g) train (fun _ => q) x) u' (fun j => kcov k test train x (q j))) by exact SO'.
  destruct (one_step K cur (gp_noise g) test train n (fun _ => q) x M u u' (fun _ => 0) OK (WPx n ltac:(lia)) (WPx (S n) ltac:(lia)) Hx SO2 SO3)
    as (c & v & m_a & RC & RB & SP & _ & VV). fold k in RC, RB, VV.
  exists q, c, v, m_a. cbv zeta. split; [exact A'|]. split; [exact RC|]. split; [exact RB|]. split; [exact SP|]. split.
  - intros e Hin.
    destruct (one_step K cur (gp_noise g) test train n (fun _ => q) x M u u' (fun j => at_ targets (q j :: e)) OK (WPx n ltac:(lia)) (WPx (S n) ltac:(lia)) Hx SO2 SO3)
      as (c1 & v1 & m1 & (al1 & Ra & ->) & (be1 & Rb & -> & ->) & SP1 & MM & _). fold k in Ra, Rb, MM, SP1.
    destruct RC as (al2 & Rc & ->). destruct RB as (be2 & Rd & -> & ->).
    assert (NSq : nonsingular n (nbr_matrix k (gp_noise g) train (fun _ => q) x)).
    { apply pd_nonsingular. apply (nbr_pd gamma kv K cur [] (gp_noise g) train M n (fun _ => q)); auto. }
    assert (NSq' : nonsingular (S n) (nbr_matrix k (gp_noise g) train (fun _ => q) x)).
    { apply pd_nonsingular. apply (nbr_pd gamma kv K cur [] (gp_noise g) train M (S n) (fun _ => q)); auto. }
    assert (D : forall y, dot n al1 y = dot n al2 y) by (intros y; apply rsum_ext; intros j Hj; rewrite (solves_unique n _ al1 al2 _ NSq Ra Rc j Hj); reflexivity).
    assert (D' : forall y, dot n be1 y = dot n be2 y) by (intros y; apply rsum_ext; intros j Hj; rewrite (solves_unique n _ be1 be2 _ NSq Rb Rd j Hj); reflexivity).
    rewrite D, !D' in MM. clear D D'.
    assert (M1 : at_ mean (x :: e) = dot n u (fun j => at_ targets (q j :: e))).
    { destruct (AM e Hin) as (w0 & W0 & ->). apply rsum_ext. intros j Hj. fold qo in W0 |- *. rewrite QQ by auto.
      rewrite (solves_unique n _ w0 u _ (NS x Hx) W0 SO j Hj). reflexivity. }
    assert (M2 : at_ mean' (x :: e) = dot (S n) u' (fun j => at_ targets (q j :: e))).
    { destruct (AM' e Hin) as (w0 & W0 & ->). apply rsum_ext. intros j Hj. fold q in W0 |- *.
      rewrite (solves_unique (S n) _ w0 u' _ (NS' x Hx) W0 SO' j Hj). reflexivity. }
    rewrite M2, M1. exact MM.
  - rewrite EV', EV. fold q qo. rewrite VV.
    assert (D : dot n u (fun j => kcov k test train x (qo j)) = dot n u (fun j => kcov k test train x (q j)))
      by (apply rsum_ext; intros j Hj; rewrite QQ by auto; reflexivity).
    rewrite D. field. lra.
Qed.
End Lookup.
End Step.
