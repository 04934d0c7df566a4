(** Lemmas for C121: predictions. *)
From Coq Require Import Lia Lra Psatz.
From Verif Require Import Base BaseFacts NdModel NdFacts RSum HyperModel NamedModel NamedSpec LinAlgModel LinAlgSpec LinAlgFacts Gauss
  GPModel NoiseModel MuyGPSModel MuyGPSProofs GPSpec GPTheorems ScaleProofs TensorModel TensorSpec KernelModel KernelSpec KernelLemmas
  FlowModel FlowSpec FlowProofs PointwiseSpec LibSpec LibProofs MultiModel DriverModel NeighborsModel NeighborsSpec NeighborsProofs WorkModel WorkSpec WorkProofs WorkLemmas
  SimplerSpec SimplerProofs ExpoSpec ExpoProofs ExpoProofs2 ContProofs2 RangeSpec RangeProofs.
Local Open Scope R_scope.

Lemma wsum_range n w y lo hi : (forall j, (j < n)%nat -> 0 <= w j) -> rsum n w <= 1 ->
  (lo <= 0 -> (forall j, (j < n)%nat -> lo <= y j) -> lo <= rsum n (fun j => w j * y j)) /\
  (0 <= hi -> (forall j, (j < n)%nat -> y j <= hi) -> rsum n (fun j => w j * y j) <= hi).
Proof.
  intros W SW. split; intros H Y.
  - apply Rle_trans with (lo * rsum n w); [nra|]. rewrite <- rsum_scal. apply rsum_le. intros j Hj. specialize (W j Hj). specialize (Y j Hj). nra.
  - apply Rle_trans with (hi * rsum n w); [|nra]. rewrite <- rsum_scal. apply rsum_le. intros j Hj. specialize (W j Hj). specialize (Y j Hj). nra.
Qed.

Section R.
Variables (gamma : R -> R) (kv : R -> R -> R).
Variable ls : lsolver.
Hypothesis EX : exact_solver ls.
Variable knn : dict nnval -> list point -> point -> nat -> list (nat * R).
Variable hnsw : nnval -> list point -> point -> nat -> list (nat * R).
Variable dist : dict nnval -> point -> point -> R.
Hypothesis Hsk : sklearn_ok knn dist.

Lemma range_cov K cur kkw l X Y i j : exponential_kernel K cur kkw l -> 0 < l ->
  kcov (lk_cov gamma kv K 1 cur kkw) X Y i j = ek l (pos X i) (pos Y j).
Proof.
  intros (XK & XS) Hl. apply (expo_cov gamma kv (mkGp NullNoise FixedScale 1 1 (mkNd [] (fun _ => 1))) K cur kkw l X Y i j); [|exact Hl].
  split; [exact XK|]. split; [exact XS|]. left. reflexivity.
Qed.

Lemma range_weights en method kw w g K cur kkw l test train N M n :
  lower method = "exact"%string -> euclidean_kw kw -> nn_init en (rows_of train) n method kw = Ok w -> (0 < n <= N /\ 0 < M)%nat ->
  dataset test M -> dataset train N -> ndim test = ndim train -> feature_count test = feature_count train -> feature_count train = 1%nat ->
  documented g K cur kkw train N M n -> exponential_kernel K cur kkw l ->
  exists q wt, (forall x, (x < M)%nat -> nearest_rows test train N x n (q x) /\ (forall j, (j < n)%nat -> 0 <= wt x j) /\ rsum n (wt x) <= 1) /\
    forall targets ex, shape targets = N :: ex -> no_coincidence ex [n] -> exists mean var,
      regress_any ls knn hnsw (Univariate (mkMm g (lk_call gamma kv K cur kkw))) test train w targets = Ok (mean, var) /\ shape mean = M :: ex /\
      forall x e, (x < M)%nat -> inb ex e -> at_ mean (x :: e) = rsum n (fun j => wt x j * at_ targets (q x j :: e)).
Proof.
  intros Hm He Hi Hn D1 D2 ND FC F1 (OK & SK & K1 & SC & NF & SN) XP.
  assert (Hl : 0 < l). { destruct OK as (_ & _ & PS & _). destruct XP as (_ & <-). apply PS. rewrite F1. lia. }
  set (A := nbr_matrix (lk_cov gamma kv K (feature_count train) cur kkw) (gp_noise g) train (nbr knn hnsw w test)).
  set (k := fun x j => kcov (lk_cov gamma kv K (feature_count train) cur kkw) test train x (nbr knn hnsw w test x j)).
  exists (nbr knn hnsw w test), (fun x => gsol n (A x) (k x)).
  assert (V0 : forall targets ex, shape targets = N :: ex -> no_coincidence ex [n] -> _) by
    (intros targets ex HT NC; exact (regress_any_nbr gamma kv ls EX knn hnsw dist Hsk en method kw w g K cur kkw test train targets N M n ex
       Hm He Hi Hn D1 D2 ND FC OK HT NC SK K1 SC NF SN)).
  split.
  - intros x Hx.
    destruct (V0 (mkNd [N] (fun _ => 0)) [] eq_refl (no_coincidence_nil n)) as (mean & var & _ & _ & _ & NS & V).
    destruct (V x Hx) as (NR & _). specialize (NS x Hx). split; [exact NR|]. set (q := nbr knn hnsw w test x) in *.
    assert (AE : forall i j, (i < n)%nat -> (j < n)%nat -> A x i j = plus_diag (fun i j => ek l (pos train (q i)) (pos train (q j))) (noise_at (gp_noise g) None x) i j).
    { intros i j _ _. unfold A, nbr_matrix, plus_diag. rewrite F1. fold q. rewrite (range_cov K cur kkw l) by assumption. reflexivity. }
    assert (SG : solves n (plus_diag (fun i j => ek l (pos train (q i)) (pos train (q j))) (noise_at (gp_noise g) None x)) (gsol n (A x) (k x))
                   (fun i => ek l (pos test x) (pos train (q i)))).
    { apply (solves_ext n (A x)); [exact AE|]. intros i Hi'. etransitivity; [exact (gsol_solves n (A x) (k x) NS i Hi')|].
      unfold k. rewrite F1. apply range_cov; assumption. }
    assert (NN : forall i, (i < n)%nat -> 0 <= noise_at (gp_noise g) None x i).
    { intros i Hi'. destruct SN as [P|[P _]]; [left; apply P; auto|apply P; auto]. }
    apply (noisy_weights l Hl n (fun i => pos train (q i)) (noise_at (gp_noise g) None x) (pos test x)); auto.
    + intros i j Hi' Hj NE E Z1 Z2. destruct SN as [P|[_ DR]].
      * specialize (P x i Hx Hi'). lra.
      * destruct NR as (QB & QI & _). destruct (DR (q i) (q j) (QB i Hi') (QB j Hj)) as (f & Hf & NFt).
        { intros Q. apply NE, QI; assumption. }
        rewrite F1 in Hf. assert (f = O) as -> by lia. apply NFt. exact E.
    + apply (nonsingular_ext n (A x)); [exact AE|exact NS].
  - intros targets ex HT NC. destruct (V0 targets ex HT NC) as (mean & var & E & Sm & _ & NS & V).
    exists mean, var. split; [exact E|]. split; [exact Sm|]. intros x e Hx Hie.
    destruct (V x Hx) as (_ & Mx & _). destruct (Mx e Hie) as (u & U & ->). fold (A x) in U.
    etransitivity; [exact (gsol_unique n (A x) (k x) u _ (NS x Hx) U)|reflexivity].
Qed.
End R.

(** ** The RBF kernel *)
Section Rbf.
Variables (gamma : R -> R) (kv : R -> R -> R).
Variable ls : lsolver.
Hypothesis EX : exact_solver ls.

Definition two_rows : nd R := mkNd [2%nat] (fun idx => match idx with [O] => 0 | _ => 1 end).
Definition one_row : nd R := mkNd [1%nat] (fun _ => 2).
Definition both : nd Z := mkNd [1; 2]%nat (fun idx => match idx with [_; j] => Z.of_nat j | _ => 0%Z end).
Definition rbf1 : libkernel := LRbf (Iso F2 (mkNamed "length_scale" 0)).
Definition plain_gp : gp := mkGp NullNoise FixedScale 1 1 (mkNd [] (fun _ => 1)).

Lemma rbf_two l y : 0 < l -> shape y = [2%nat] -> exists mean var,
  regress_from_indices ls (lib_model gamma kv plain_gp rbf1 (fun _ => l)) (arange 1) both one_row two_rows y = Ok (mean, var) /\
  at_ mean [0%nat] = - exp (- (1 / l ^ 2)) * at_ y [0%nat] + exp (- (1 / (2 * l ^ 2))) * (1 + exp (- (1 / l ^ 2))) * at_ y [1%nat].
Proof.
  intros Hl SY.
  assert (OK : lk_ok rbf1 1 (fun _ => l) []).
  { split; [reflexivity|]. split; [lia|]. split; [intros f _; exact Hl|reflexivity]. }
  assert (WP : well_posed NullNoise two_rows 1 2 (fun _ j => j)).
  { intros x Hx. right. split; [intros; cbn; lra|]. intros i j Hi Hj NE. exists O. split; [cbn; lia|]. unfold feature. cbn.
    destruct i as [|[|i]]; [| |lia]; (destruct j as [|[|j]]; [| |lia]); cbn; try lra; congruence. }
  assert (IM : index_matrix both 1 2 2 (fun _ j => j)).
  { split; [reflexivity|]. intros x j _ Hj. split; [reflexivity|exact Hj]. }
  destruct (regress_indices gamma kv ls EX plain_gp rbf1 (fun _ => l) [] both one_row two_rows y 2 1 2 (fun _ j => j) []) as (mean & var & E & _ & _ & V);
    auto; try reflexivity; try (left; reflexivity); try (apply no_coincidence_nil); try (cbn; lra); try exact Logic.I.
  exists mean, var. split; [exact E|]. destruct (V O Nat.lt_0_1) as (Mx & _). specialize (Mx [] inb_nil).
  change (feature_count two_rows) with 1%nat in Mx. change (gp_noise plain_gp) with NullNoise in Mx.
  set (c := lk_cov gamma kv rbf1 1 (fun _ => l) []) in *.
  assert (CV : forall i j, kcov c two_rows two_rows i j = exp (- ((feature two_rows i 0 - feature two_rows j 0) / l) ^ 2 / 2)).
  { intros i j. unfold kcov, c. cbn [lk_cov rbf1]. unfold rbf_cov, scaled_sqdist. cbn [rsum]. f_equal. f_equal. f_equal.
    rewrite Rplus_0_l, Rminus_0_r. reflexivity. }
  assert (CW : forall j, kcov c one_row two_rows 0 j = exp (- ((2 - feature two_rows j 0) / l) ^ 2 / 2)).
  { intros j. unfold kcov, c. cbn [lk_cov rbf1]. unfold rbf_cov, scaled_sqdist. cbn [rsum]. f_equal. f_equal. f_equal.
    rewrite Rplus_0_l, Rminus_0_r. reflexivity. }
  set (a := exp (- (1 / (2 * l ^ 2)))).
  assert (EQ : forall t, exp (- (t / l) ^ 2 / 2) = exp (t ^ 2 * (- (1 / (2 * l ^ 2))))) by (intros t; f_equal; field; lra).
  assert (A0 : forall t, t = 0 -> exp (- (t / l) ^ 2 / 2) = 1) by (intros t ->; rewrite EQ; rewrite <- exp_0; f_equal; ring).
  assert (A1 : forall t, t ^ 2 = 1 -> exp (- (t / l) ^ 2 / 2) = a) by (intros t Et; rewrite EQ, Et; unfold a; f_equal; ring).
  assert (A4 : forall t, t ^ 2 = 4 -> exp (- (t / l) ^ 2 / 2) = a * a * a * a) by (intros t Et; rewrite EQ, Et; unfold a; rewrite <- !exp_plus; f_equal; ring).
  assert (AA : exp (- (1 / l ^ 2)) = a * a) by (unfold a; rewrite <- exp_plus; f_equal; field; lra).
  rewrite AA.
  assert (NS : nonsingular 2 (nbr_matrix c NullNoise two_rows (fun _ j => j) 0)).
  { apply (well_posed_ns gamma kv rbf1 (fun _ => l) [] NullNoise two_rows 1 2 (fun _ j => j)); auto. }
  assert (F0 : feature two_rows 0 0 = 0) by reflexivity. assert (F1 : feature two_rows 1 0 = 1) by reflexivity.
  refine (kriging_det 2 _ _ _ _ _ _ _ _ NS (fun i j _ _ => eq_refl) (fun i _ => eq_refl) (fun i _ => eq_refl) Mx _).
  exists (fun j => match j with O => - (a * a) | _ => a * (1 + a * a) end). split.
  - intros i Hi. cbn [rsum]. unfold nbr_matrix, plus_diag. cbn [noise_at]. rewrite !CV, CW.
    destruct i as [|[|i]]; [| |lia]; cbn [Nat.eqb]; rewrite F0, F1.
    + rewrite (A0 (0 - 0)), (A1 (0 - 1)), (A4 (2 - 0)) by ring. ring.
    + rewrite (A1 (1 - 0)), (A0 (1 - 1)), (A1 (2 - 1)) by ring. ring.
  - unfold dot. cbn [rsum]. ring.
Qed.

(** All responses in [0, 1], the prediction outside. *)
Lemma rbf_negative l : 0 < l -> exists y mean var, (forall a, (a < 2)%nat -> 0 <= at_ y [a] <= 1) /\ shape y = [2%nat] /\
  regress_from_indices ls (lib_model gamma kv plain_gp rbf1 (fun _ => l)) (arange 1) both one_row two_rows y = Ok (mean, var) /\ at_ mean [0%nat] < 0.
Proof.
  intros Hl. destruct (rbf_two l (mkNd [2%nat] (fun idx => match idx with [O] => 1 | _ => 0 end)) Hl eq_refl) as (mean & var & E & V).
  eexists _, mean, var. split; [|split; [|split; [exact E|]]]; [|reflexivity|].
  - intros a _. cbn [at_]. destruct a; lra.
  - rewrite V. cbn [at_]. pose proof (exp_pos (- (1 / l ^ 2))). lra.
Qed.

Lemma rbf_overshoot : exists y mean var, (forall a, (a < 2)%nat -> 0 <= at_ y [a] <= 1) /\ shape y = [2%nat] /\
  regress_from_indices ls (lib_model gamma kv plain_gp rbf1 (fun _ => 2)) (arange 1) both one_row two_rows y = Ok (mean, var) /\ 3/2 < at_ mean [0%nat].
Proof.
  destruct (rbf_two 2 (mkNd [2%nat] (fun idx => match idx with [O] => 0 | _ => 1 end)) ltac:(lra) eq_refl) as (mean & var & E & V).
  eexists _, mean, var. split; [|split; [|split; [exact E|]]]; [|reflexivity|].
  - intros a _. cbn [at_]. destruct a; lra.
  - rewrite V. cbn [at_]. replace (- (1 / 2 ^ 2)) with (- (1 / (2 * 2 ^ 2)) + - (1 / (2 * 2 ^ 2))) by field. rewrite exp_plus.
    assert (P : 1 + - (1 / (2 * 2 ^ 2)) <= exp (- (1 / (2 * 2 ^ 2)))) by apply exp_ineq1_le.
    set (a := exp (- (1 / (2 * 2 ^ 2)))) in *. assert (7/8 <= a) by lra. clear P V E. nra.
Qed.
End Rbf.
