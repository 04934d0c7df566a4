(** Nearest neighbours and correlation (C126). *)
From Coq Require Import Lia Lra.
From Verif Require Import Base BaseFacts NdModel NdFacts RSum HyperModel NamedModel NamedSpec LinAlgModel LinAlgSpec LinAlgFacts Gauss
  GPModel NoiseModel MuyGPSModel GPSpec GPTheorems TensorModel TensorSpec KernelModel KernelSpec KernelCases
  NeighborsModel NeighborsSpec NeighborsProofs BatchProofs FlowModel FlowSpec FlowProofs PointwiseSpec LibSpec LibProofs
  MultiModel DriverModel WorkModel WorkSpec WorkProofs WorkLemmas WorkProps BestSpec BestProofs SimplerSpec NearCorrProofs.
Local Open Scope R_scope.

(** * C126 *)
(** With equal length scales, each test row is predicted from the training rows whose latent values are most correlated with its own, in
    descending order of correlation; the reported variance is at most the expected squared error of any predictor [c * (response of row a)]
    from any one training row [a]; and with one neighbour it is the scale times 1 - correlation^2 / (1 + noise). *)
Theorem C126_most_correlated_partial : forall gamma kv ls, exact_solver ls -> forall knn hnsw dist, sklearn_ok knn dist ->
  forall en method kw w g K cur test train targets N M n ex L,
  regression en method kw w test train targets N M n ex -> documented g K cur [] train N M n ->
  (forall f, (f < feature_count train)%nat -> scale_of (lk_def K) cur [] f = L) ->
  exists mean var q u,
    regress_any ls knn hnsw (Univariate (lib_model gamma kv g K cur)) test train w targets = Ok (mean, var) /\
    forall x, (x < M)%nat -> nearest_rows test train N x n (q x) /\
      let rho := kcov (lk_cov gamma kv K (feature_count train) cur []) test train x in
      (forall e, inb ex e -> at_ mean (x :: e) = rsum n (fun j => u x j * at_ targets (q x j :: e))) /\
      (forall i j, (i <= j)%nat -> (j < n)%nat -> rho (q x j) <= rho (q x i)) /\
      (forall a, (a < N)%nat -> (forall j, (j < n)%nat -> q x j <> a) -> forall j, (j < n)%nat -> rho a <= rho (q x j)) /\
      (forall a c, (a < N)%nat -> at_ var [x] <= gp_var_scale g * (1 - 2 * c * rho a + c ^ 2 * (1 + noise_at (gp_noise g) None x 0))) /\
      (n = 1%nat -> at_ var [x] = gp_var_scale g * (1 - rho (q x 0%nat) ^ 2 / (1 + noise_at (gp_noise g) None x 0))).
Proof. exact most_correlated. Qed.
Print Assumptions C126_most_correlated_partial.

(** Different length scales: the lookup measures distances between unscaled features. The rows (1,0) and (0,2) with length scales (1,4): the
    origin is predicted from the first, although the second is more strongly correlated with it and predicts it with a smaller error. *)
Definition ex126_train : nd R := mkNd [2; 2]%nat (fun idx => match idx with [O; O] => 1 | [1%nat; 1%nat] => 2 | _ => 0 end).
Definition ex126_test : nd R := mkNd [1; 2]%nat (fun _ => 0).
Definition ex126_targets : nd R := mkNd [2%nat] (fun idx => INR (hd O idx)).
Definition ex126_K : libkernel := LRbf (Aniso F2 (snd (vec_init empty_store "length_scale" [0; 0]%nat))).
Definition ex126_cur (l : nat) : R := match l with O => 1 | _ => 4 end.

Lemma ex126_ok : exists w, regression false "exact" [] w ex126_test ex126_train ex126_targets 2 1 1 [] /\
  documented ex80_gp ex126_K ex126_cur [] ex126_train 2 1 1.
Proof.
  eexists. split.
  - split; [reflexivity|]. split; [unfold euclidean_kw; cbn; auto|]. split; [reflexivity|]. split; [lia|]. split; [right; eexists; reflexivity|].
    split; [right; eexists; reflexivity|]. split; [reflexivity|]. split; [reflexivity|]. split; [reflexivity|]. apply no_coincidence_nil.
  - split.
    { split; [|split; [apply Nat.lt_0_succ|split; [|reflexivity]]].
      - exists empty_store, [0; 0]%nat, 0%nat. split; [reflexivity|]. split; [reflexivity|]. split; [constructor|]. split; [apply Nat.le_0_l|reflexivity].
      - intros f Hf. change (feature_count ex126_train) with 2%nat in Hf. destruct f as [|[|f]]; [| |lia]; cbn; lra. }
    split; [reflexivity|]. split; [reflexivity|]. split; [cbn; lra|]. split; [exact Logic.I|]. right. split; [intros; cbn; lra|].
    intros i j Hi Hj NE. exists O. split; [cbn; lia|]. unfold feature, ex126_train. cbn [shape at_].
    destruct i as [|[|i]]; [| |lia]; (destruct j as [|[|j]]; [| |lia]); cbn; try lra; congruence.
Qed.

Lemma ex126_rho gamma kv a : (a < 2)%nat ->
  kcov (lk_cov gamma kv ex126_K (feature_count ex126_train) ex126_cur []) ex126_test ex126_train 0 a = exp (- (match a with O => 1 | _ => 1 / 4 end) / 2).
Proof.
  intros Ha. unfold kcov, lk_cov, ex126_K, rbf_cov, scaled_sqdist. destruct a as [|[|a]]; [| |lia]; f_equal; cbn; field.
Qed.

Theorem C126_anisotropic_refuted : forall gamma kv ls, exact_solver ls -> forall knn hnsw dist, sklearn_ok knn dist ->
  exists w, regression false "exact" [] w ex126_test ex126_train ex126_targets 2 1 1 [] /\ documented ex80_gp ex126_K ex126_cur [] ex126_train 2 1 1 /\
  forall mean var, regress_any ls knn hnsw (Univariate (lib_model gamma kv ex80_gp ex126_K ex126_cur)) ex126_test ex126_train w ex126_targets = Ok (mean, var) ->
  exists q a c, nearest_rows ex126_test ex126_train 2 0 1 q /\ (a < 2)%nat /\ q 0%nat <> a /\
    let k := lk_cov gamma kv ex126_K (feature_count ex126_train) ex126_cur [] in
    kcov k ex126_test ex126_train 0 (q 0%nat) < kcov k ex126_test ex126_train 0 a /\
    gp_var_scale ex80_gp * error_variance k (gp_noise ex80_gp) ex126_test ex126_train 0 1 (fun _ => a) (fun _ => c) < at_ var [0%nat].
Proof.
  intros gamma kv ls EX knn hnsw dist SK. destruct ex126_ok as (w & RG & DO). exists w. split; [exact RG|]. split; [exact DO|].
  intros mean0 var0 E0.
  destruct RG as (Hm & He & Hw & Hn & D1 & D2 & ND & FC & HT & NC). destruct DO as (OK & SKo & K1 & SC & NF & SN).
  destruct (best_linear gamma kv ls EX knn hnsw dist SK _ _ _ _ _ _ _ _ _ _ 2%nat 1%nat 1%nat [] Hm He Hw Hn D1 D2 ND FC OK HT NC SKo K1 SC NF SN) as (mean & var & q & u & E & V).
  assert (EQ : var0 = var) by congruence. subst var0. clear E0 mean0 E.
  destruct (V O ltac:(lia)) as (NR & _ & VA & _).
  assert (RD : forall a, (a < 2)%nat -> row_dist ex126_test ex126_train 0 a = match a with O => 1 | _ => 4 end).
  { intros a Ha. unfold row_dist, sqdist, feature, feature_count, ex126_test, ex126_train. cbn [shape at_ rsum]. destruct a as [|[|a]]; [| |lia]; cbn; ring. }
  assert (Q0 : q 0%nat 0%nat = 0%nat).
  { destruct NR as (QB & _ & _ & OUT). specialize (QB O ltac:(lia)). destruct (q 0%nat 0%nat) as [|[|z]] eqn:Eq; [reflexivity| |lia]. exfalso.
    assert (X : row_dist ex126_test ex126_train 0 (q 0%nat 0%nat) <= row_dist ex126_test ex126_train 0 0).
    { apply OUT; [lia| |lia]. intros j Hj. replace j with O by lia. lia. }
    rewrite Eq, !RD in X by lia. lra. }
  assert (XP : exp (- (1) / 2) < exp (- (1 / 4) / 2)) by (apply exp_increasing; lra). assert (P1 : 0 < exp (- (1) / 2)) by apply exp_pos.
  set (k := lk_cov gamma kv ex126_K (feature_count ex126_train) ex126_cur []) in *.
  assert (ES : forall p c, error_variance k (gp_noise ex80_gp) ex126_test ex126_train 0 1 p (fun _ => c) = 1 - 2 * c * kcov k ex126_test ex126_train 0 (p 0%nat) + c ^ 2).
  { intros p c. unfold error_variance, obs_cov. cbn [rsum Nat.eqb gp_noise ex80_gp noise_at]. unfold kcov, k.
    rewrite (lk_cov_0 gamma kv ex126_K _ ex126_cur [] (feature ex126_test) 0 OK), (lk_cov_0 gamma kv ex126_K _ ex126_cur [] (feature ex126_train) (p 0%nat) OK). ring. }
  exists (q 0%nat), 1%nat, (kcov k ex126_test ex126_train 0 1). split; [exact NR|]. split; [lia|]. split; [rewrite Q0; lia|]. rewrite Q0. cbv zeta.
  pose proof (ex126_rho gamma kv 0 ltac:(lia)) as R0. pose proof (ex126_rho gamma kv 1 ltac:(lia)) as R1. cbv iota in R0, R1. fold k in R0, R1.
  split; [rewrite R0, R1; exact XP|]. rewrite VA.
  assert (EU : error_variance k (gp_noise ex80_gp) ex126_test ex126_train 0 1 (q 0%nat) (u 0%nat) =
    error_variance k (gp_noise ex80_gp) ex126_test ex126_train 0 1 (q 0%nat) (fun _ => u 0%nat 0%nat)) by reflexivity.
  rewrite EU, !ES, Q0, R0, R1. cbn [gp_var_scale ex80_gp].
  set (e0 := exp (- (1) / 2)) in *. set (e1 := exp (- (1 / 4) / 2)) in *.
  assert (SQ : e0 ^ 2 < e1 ^ 2) by (cbn [pow]; rewrite !Rmult_1_r; apply Rmult_le_0_lt_compat; lra).
  pose proof (pow2_ge_0 (u 0%nat 0%nat - e0)) as H. 
  assert (Z : 1 - 2 * u 0%nat 0%nat * e0 + u 0%nat 0%nat ^ 2 = 1 - e0 ^ 2 + (u 0%nat 0%nat - e0) ^ 2) by ring. rewrite Z.
  assert (Z' : 1 - 2 * e1 * e1 + e1 ^ 2 = 1 - e1 ^ 2) by ring. rewrite Z'. lra.
Qed.
Print Assumptions C126_anisotropic_refuted.

(** More neighbours: the nearest two are not the best two. Exponential kernel, rows 1, 11/10 and -2: the value at 0 is predicted from 1 and
    11/10, but a combination of 1 and -2 has a smaller expected error. *)
Definition ex126_line : nd R := mkNd [3%nat] (fun idx => match hd O idx with O => 1 | S O => 11/10 | _ => -2 end).
Definition ex126_zero : nd R := mkNd [1%nat] (fun _ => 0).
Definition ex126_y : nd R := mkNd [3%nat] (fun idx => INR (hd O idx)).
Definition ex126_exp : libkernel := LMatern (Iso L2 (mkNamed "length_scale" 0)) (mkNamed "smoothness" 1) (mkParam (Fin (1/2)) (Fin 0, Fin 0) true).

Lemma ex126_half : formula_for (mkParam (Fin (1/2)) (Fin 0, Fin 0) true) = Half.
Proof. unfold formula_for. cbn. repeat (destruct (Req_EM_T _ _); try lra; try reflexivity). Qed.

Lemma ex126_ok2 : exists w, regression false "exact" [] w ex126_zero ex126_line ex126_y 3 1 2 [] /\
  documented ex80_gp ex126_exp (fun _ => 1) [] ex126_line 3 1 2.
Proof.
  eexists. split.
  - split; [reflexivity|]. split; [unfold euclidean_kw; cbn; auto|]. split; [reflexivity|]. split; [lia|]. split; [left; reflexivity|].
    split; [left; reflexivity|]. split; [reflexivity|]. split; [reflexivity|]. split; [reflexivity|]. apply no_coincidence_nil.
  - split.
    { split; [reflexivity|]. split; [cbn; lia|]. split; [intros f _; cbn; lra|]. split; [reflexivity|]. split; [reflexivity|].
      rewrite ex126_half. discriminate. }
    split; [reflexivity|]. split; [reflexivity|]. split; [cbn; lra|]. split; [exact Logic.I|]. right. split; [intros; cbn; lra|].
    intros i j Hi Hj NE. exists O. split; [cbn; lia|]. unfold feature, ex126_line. cbn [shape at_].
    destruct i as [|[|[|i]]]; [| | |lia]; (destruct j as [|[|[|j]]]; [| | |lia]); cbn; try lra; congruence.
Qed.

Lemma ex126_cov gamma kv X Y i j : shape X = [hd O (shape X)] -> shape Y = [hd O (shape Y)] ->
  kcov (lk_cov gamma kv ex126_exp 1 (fun _ => 1) []) X Y i j = exp (- Rabs (feature X i 0 - feature Y j 0)).
Proof.
  intros _ _. unfold kcov, lk_cov, ex126_exp, matern_cov. rewrite ex126_half. cbn [matern_value]. unfold matern_half. do 2 f_equal.
  unfold scaled_sqdist. cbn [rsum]. rewrite <- sqrt_Rsqr_abs. f_equal. unfold Rsqr. cbn. field.
Qed.

Theorem C126_two_refuted : forall gamma kv ls, exact_solver ls -> forall knn hnsw dist, sklearn_ok knn dist ->
  exists w, regression false "exact" [] w ex126_zero ex126_line ex126_y 3 1 2 [] /\ documented ex80_gp ex126_exp (fun _ => 1) [] ex126_line 3 1 2 /\
  forall mean var, regress_any ls knn hnsw (Univariate (lib_model gamma kv ex80_gp ex126_exp (fun _ => 1))) ex126_zero ex126_line w ex126_y = Ok (mean, var) ->
  exists p v, (p 0 < 3 /\ p 1 < 3 /\ p 0 <> p 1)%nat /\
    gp_var_scale ex80_gp * error_variance (lk_cov gamma kv ex126_exp (feature_count ex126_line) (fun _ => 1) []) (gp_noise ex80_gp) ex126_zero ex126_line 0 2 p v < at_ var [0%nat].
Proof.
  intros gamma kv ls EX knn hnsw dist SK. destruct ex126_ok2 as (w & RG & DO). exists w. split; [exact RG|]. split; [exact DO|].
  intros mean0 var0 E0.
  destruct RG as (Hm & He & Hw & Hn & D1 & D2 & ND & FC & HT & NC). destruct DO as (OK & SKo & K1 & SC & NF & SN).
  destruct (best_linear gamma kv ls EX knn hnsw dist SK _ _ _ _ _ _ _ _ _ _ 3%nat 1%nat 2%nat [] Hm He Hw Hn D1 D2 ND FC OK HT NC SKo K1 SC NF SN) as (mean & var & q & u & E & V).
  assert (EQ : var0 = var) by congruence. subst var0. clear E0 mean0 E.
  destruct (V O ltac:(lia)) as (NR & _ & VA & _).
  assert (RD : forall a, (a < 3)%nat -> row_dist ex126_zero ex126_line 0 a = match a with O => 1 | S O => 121/100 | _ => 4 end).
  { intros a Ha. unfold row_dist, sqdist, feature, feature_count, ex126_zero, ex126_line. cbn [shape at_ rsum]. destruct a as [|[|[|a]]]; [| | |lia]; cbn; field. }
  assert (Q : q 0%nat 0%nat = 0%nat /\ q 0%nat 1%nat = 1%nat).
  { destruct NR as (QB & QI & SO & OUT). pose proof (QB O ltac:(lia)) as B0. pose proof (QB 1%nat ltac:(lia)) as B1.
    assert (NE : q 0%nat O <> q 0%nat 1%nat) by (intros X; apply QI in X; lia).
    assert (S01 : row_dist ex126_zero ex126_line 0 (q 0%nat 0%nat) <= row_dist ex126_zero ex126_line 0 (q 0%nat 1%nat)) by (apply SO; lia).
    assert (OU : forall a, (a < 3)%nat -> q 0%nat 0%nat <> a -> q 0%nat 1%nat <> a -> row_dist ex126_zero ex126_line 0 (q 0%nat 1%nat) <= row_dist ex126_zero ex126_line 0 a).
    { intros a Ha H0 H1. apply OUT; [exact Ha| |lia]. intros [|[|j]] Hj; [exact H0|exact H1|lia]. }
    pose proof (OU 0%nat) as OU0. pose proof (OU 1%nat) as OU1. clear OU OUT SO QI QB.
    destruct (q 0%nat 0%nat) as [|[|[|z]]]; [| | |lia]; (destruct (q 0%nat 1%nat) as [|[|[|z']]]; [| | |lia]); try congruence; try (split; reflexivity); exfalso;
      rewrite ?RD in * by lia; try lra;
      first [specialize (OU0 ltac:(lia) ltac:(lia) ltac:(lia)); lra|specialize (OU1 ltac:(lia) ltac:(lia) ltac:(lia)); lra]. }
  destruct Q as [Q0 Q1].
  change (feature_count ex126_line) with 1%nat in *.
  set (k := lk_cov gamma kv ex126_exp 1 (fun _ => 1) []) in *.
  set (s := exp (-1)). set (r := exp (- (1/10))).
  assert (KC : forall a, (a < 3)%nat -> kcov k ex126_zero ex126_line 0 a = match a with O => s | S O => r * s | _ => s * s end).
  { intros a Ha. unfold k. rewrite ex126_cov by reflexivity. unfold feature, ex126_zero, ex126_line. cbn [shape at_].
    destruct a as [|[|[|a]]]; [| | |lia]; cbn; unfold r, s; rewrite <- ?exp_plus; f_equal.
    - rewrite Rabs_left by lra. lra. - rewrite Rabs_left by lra. lra. - rewrite Rabs_pos_eq by lra. lra. }
  assert (KK : forall a b, (a < 3)%nat -> (b < 3)%nat -> kcov k ex126_line ex126_line a b = exp (- Rabs (feature ex126_line a 0 - feature ex126_line b 0)))
    by (intros a b _ _; unfold k; apply ex126_cov; reflexivity).
  assert (KD : forall a, (a < 3)%nat -> kcov k ex126_line ex126_line a a = 1) by (intros a Ha; rewrite KK by exact Ha; rewrite Rminus_diag_eq, Rabs_R0, Ropp_0, exp_0 by reflexivity; reflexivity).
  assert (K01 : kcov k ex126_line ex126_line 0 1 = r /\ kcov k ex126_line ex126_line 1 0 = r).
  { rewrite !KK by lia. unfold feature, ex126_line, r. cbn. split; f_equal; [rewrite Rabs_left by lra; lra|rewrite Rabs_pos_eq by lra; lra]. }
  assert (K02 : kcov k ex126_line ex126_line 0 2 = s * (s * s) /\ kcov k ex126_line ex126_line 2 0 = s * (s * s)).
  { rewrite !KK by lia. unfold feature, ex126_line, s. rewrite <- !exp_plus. cbn. split; f_equal; [rewrite Rabs_pos_eq by lra; lra|rewrite Rabs_left by lra; lra]. }
  assert (KX : kcov k ex126_zero ex126_zero 0 0 = 1).
  { unfold k. rewrite ex126_cov by reflexivity. rewrite Rminus_diag_eq, Rabs_R0, Ropp_0, exp_0 by reflexivity. reflexivity. }
  assert (ES : forall p v, error_variance k (gp_noise ex80_gp) ex126_zero ex126_line 0 2 p v = 
    1 - 2 * (v 0%nat * kcov k ex126_zero ex126_line 0 (p 0%nat) + v 1%nat * kcov k ex126_zero ex126_line 0 (p 1%nat)) +
    (v 0%nat * v 0%nat * kcov k ex126_line ex126_line (p 0%nat) (p 0%nat) + v 0%nat * v 1%nat * kcov k ex126_line ex126_line (p 0%nat) (p 1%nat) +
     (v 1%nat * v 0%nat * kcov k ex126_line ex126_line (p 1%nat) (p 0%nat) + v 1%nat * v 1%nat * kcov k ex126_line ex126_line (p 1%nat) (p 1%nat)))).
  { intros p v. unfold error_variance, obs_cov. cbn [rsum Nat.eqb gp_noise ex80_gp noise_at]. rewrite KX. ring. }
  assert (S0 : 0 < s) by apply exp_pos. assert (S1 : s < 1) by (apply Rlt_le_trans with (exp 0); [unfold s; apply exp_increasing; lra|rewrite exp_0; lra]).
  assert (R0 : 0 < r) by apply exp_pos. assert (R1 : r < 1) by (apply Rlt_le_trans with (exp 0); [unfold r; apply exp_increasing; lra|rewrite exp_0; lra]).
  set (c := s * s - s * s * s * s).
  exists (fun j => match j with O => 0 | _ => 2 end)%nat, (fun j => match j with O => s | _ => c end). split; [cbn; lia|].
  rewrite VA, !ES, Q0, Q1. cbn [gp_var_scale ex80_gp]. rewrite !KC, !KD by lia. rewrite (proj1 K01), (proj2 K01), (proj1 K02), (proj2 K02).
  pose proof (pair_error_exp 0 r s (u 0%nat 0%nat) (u 0%nat 1%nat) ltac:(lra) ltac:(lra) ltac:(nra)) as B.
  assert (C0 : 0 < c).
  { unfold c. assert (SS : 0 < s * s < 1) by nra. nra. }
  assert (U : 1 - 2 * (s * s + c * (s * s)) + (s * s * 1 + s * c * (s * (s * s)) + (c * s * (s * (s * s)) + c * c * 1)) = 1 - s ^ 2 - c ^ 2) by (unfold c; ring).
  assert (C2 : 0 < c ^ 2) by (apply pow_lt; exact C0). lra.
Qed.
Print Assumptions C126_two_refuted.

(** The hypotheses of C126_most_correlated_partial hold for the second of these. *)
Example C126_sat : exists knn dist w, sklearn_ok knn dist /\
  regression false "exact" [] w ex126_zero ex126_line ex126_y 3 1 2 [] /\ documented ex80_gp ex126_exp (fun _ => 1) [] ex126_line 3 1 2 /\
  (forall f, (f < feature_count ex126_line)%nat -> scale_of (lk_def ex126_exp) (fun _ => 1) [] f = 1).
Proof. destruct ex126_ok2 as (w & A & B). exists ref_knn, (fun _ => ref_dist), w. split; [apply ref_ok|]. split; [exact A|]. split; [exact B|]. reflexivity. Qed.
