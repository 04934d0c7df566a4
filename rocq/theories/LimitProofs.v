(** Lemmas for C124. *)
From Coq Require Import Lia Lra.
From Verif Require Import Base BaseFacts NdModel NdFacts RSum HyperModel NamedModel NamedSpec LinAlgModel LinAlgSpec LinAlgFacts Gauss
  GPModel NoiseModel MuyGPSModel GPSpec GPTheorems WellPosedProofs TensorModel TensorSpec TensorProofs KernelModel KernelSpec
  NeighborsModel NeighborsSpec NeighborsProofs FlowModel FlowSpec FlowProofs PointwiseSpec LibSpec LibProofs
  MultiModel DriverModel WorkModel WorkSpec WorkProofs WorkLemmas BestSpec BestGram BestProofs LocalSpec LocalProofs FarSpec FarProofs DupProofs
  ContProofs SmoothProofs RoundProofs SimplerSpec ExpoProofs NativeSpec NativeProofs FitSpec FitProofs.
Local Open Scope R_scope.

Section L.
Variables (gamma : R -> R) (kv : R -> R -> R).

Lemma kcov_01 K cur X Y i j F : lk_ok K F cur [] -> 0 <= kcov (lk_cov gamma kv K F cur []) X Y i j <= 1.
Proof. intros OK. exact (lk_le_1 gamma kv K F cur (fun f => feature X i f - feature Y j f) OK). Qed.

(** A system close to ones on and off the diagonal. *)
Section Flat.
Variables (n : nat) (A : nat -> nat -> R) (k nu : nat -> R) (u : nat -> R) (c d : R).
Hypothesis C0 : 0 < c.
Hypothesis D0 : 0 <= d.
Hypothesis CO : coercive n A c.
Hypothesis NU : forall i, (i < n)%nat -> c <= nu i.
Hypothesis HA : forall i j, (i < n)%nat -> (j < n)%nat -> exists b, 1 - d <= b <= 1 /\ A i j = b + (if (i =? j)%nat then nu i else 0).
Hypothesis HK : forall i, (i < n)%nat -> 1 - d <= k i <= 1.
Hypothesis Kabs : forall i, (i < n)%nat -> Rabs (k i) <= 1.
Hypothesis SO : solves n A u k.
Let S0 := rsum n (fun j => / nu j).
Let u0 := fun j => / nu j / (1 + S0).

Lemma nu_pos i : (i < n)%nat -> 0 < / nu i.
Proof. intros Hi. apply Rinv_0_lt_compat. pose proof (NU i Hi). lra. Qed.
Lemma S0_pos : 0 <= S0.
Proof. apply rsum_nonneg. intros i Hi. left. apply nu_pos; exact Hi. Qed.
Lemma S0_le : S0 <= INR n / c.
Proof.
  unfold S0. apply Rle_trans with (rsum n (fun _ => / c)).
  - apply rsum_le. intros i Hi. apply Rinv_le_contravar; [exact C0|apply NU; exact Hi].
  - rewrite rsum_const. right. reflexivity.
Qed.
Lemma u0_nonneg i : (i < n)%nat -> 0 <= u0 i.
Proof. intros Hi. unfold u0. pose proof (nu_pos i Hi). pose proof S0_pos. apply Rmult_le_pos; [lra|left; apply Rinv_0_lt_compat; lra]. Qed.
Lemma u0_sum : rsum n u0 = S0 / (1 + S0).
Proof. unfold u0. unfold Rdiv at 1. rewrite rsum_scal_r. reflexivity. Qed.

Lemma flat_l1 : rsum n (fun i => Rabs (u i - u0 i)) <= INR n * (2 * d) / c.
Proof.
  pose proof S0_pos as SP.
  assert (US : 0 <= rsum n u0 <= 1).
  { split; [apply rsum_nonneg; intros; apply u0_nonneg; assumption|]. rewrite u0_sum. apply Rmult_le_reg_r with (1 + S0); [lra|]. unfold Rdiv. rewrite Rmult_assoc, Rinv_l by lra. lra. }
  apply (l1_bound n A (fun i => k i - rsum n (fun j => A i j * u0 j)) (fun i => u i - u0 i) c (2 * d)); auto; [lra| |].
  - intros i Hi. rewrite <- (SO i Hi), <- rsum_minus. apply rsum_ext. intros; ring.
  - intros i Hi.
    assert (B : exists r, rsum n (fun j => A i j * u0 j) = r + nu i * u0 i /\ rsum n u0 - d <= r <= rsum n u0).
    { exists (rsum n (fun j => A i j * u0 j) - nu i * u0 i). split; [ring|].
      assert (E : rsum n (fun j => A i j * u0 j) - nu i * u0 i = rsum n (fun j => (A i j - (if (i =? j)%nat then nu i else 0)) * u0 j)).
      { rewrite (rsum_ext n (fun j => (A i j - _) * u0 j) (fun j => A i j * u0 j - delta j i * (nu i * u0 j))).
        2:{ intros j _. unfold delta. rewrite (Nat.eqb_sym j i). destruct (i =? j)%nat; ring. }
        rewrite rsum_minus, (rsum_delta n i (fun j => nu i * u0 j)) by exact Hi. reflexivity. }
      rewrite E. split.
      - apply Rle_trans with (rsum n (fun j => (1 - d) * u0 j)).
        + rewrite rsum_scal. nra.
        + apply rsum_le. intros j Hj. destruct (HA i j Hi Hj) as (b & B & ->). apply Rmult_le_compat_r; [apply u0_nonneg; exact Hj|lra].
      - apply rsum_le. intros j Hj. destruct (HA i j Hi Hj) as (b & B & ->). rewrite <- (Rmult_1_l (u0 j)) at 2. apply Rmult_le_compat_r; [apply u0_nonneg; exact Hj|lra]. }
    destruct B as (r & -> & B). rewrite u0_sum in B. pose proof (HK i Hi) as KB.
    assert (NE : nu i <> 0) by (pose proof (NU i Hi); lra).
    assert (E : nu i * u0 i = 1 - S0 / (1 + S0)) by (unfold u0; field; lra). rewrite E. apply Rabs_le. lra.
Qed.

Lemma flat_mean (y : nat -> R) Y : (forall i, (i < n)%nat -> Rabs (y i) <= Y) ->
  Rabs (dot n u y - rsum n (fun j => / nu j * y j) / (1 + S0)) <= INR n * (2 * d) / c * Y.
Proof.
  intros HY. destruct (Nat.eq_dec n 0) as [Z|NZ].
  { unfold dot, S0. rewrite Z. cbn [rsum INR]. rewrite Rabs_right; unfold Rdiv; [|rewrite !Rmult_0_l; lra]. rewrite !Rmult_0_l. lra. }
  assert (Y0 : 0 <= Y) by (eapply Rle_trans; [apply Rabs_pos|apply (HY 0%nat); lia]).
  assert (E : rsum n (fun j => / nu j * y j) / (1 + S0) = dot n u0 y).
  { unfold dot, u0. unfold Rdiv at 1. rewrite <- rsum_scal_r. apply rsum_ext. intros j _. unfold Rdiv. ring. }
  rewrite E, <- dot_minus_l. eapply Rle_trans; [apply (dot_l1 n _ y Y HY)|]. apply Rmult_le_compat_r; [exact Y0|exact flat_l1].
Qed.

Lemma flat_var : Rabs (1 - dot n u k - / (1 + S0)) <= 3 * d * INR n / c.
Proof.
  pose proof S0_pos as SP. pose proof S0_le as SL. pose proof flat_l1 as F.
  assert (E : 1 - dot n u k - / (1 + S0) = - dot n (fun i => u i - u0 i) k - dot n u0 (fun i => k i - 1)).
  { rewrite dot_minus_l. assert (X : dot n u0 (fun i => k i - 1) = dot n u0 k - rsum n u0).
    { unfold dot. rewrite <- rsum_minus. apply rsum_ext. intros; ring. }
    rewrite X, u0_sum. field. lra. }
  rewrite E.
  assert (B2 : Rabs (dot n u0 (fun i => k i - 1)) <= INR n / c * d).
  { unfold dot. eapply Rle_trans; [apply rsum_abs|]. apply Rle_trans with (rsum n (fun j => u0 j * d)).
    - apply rsum_le. intros j Hj. rewrite Rabs_mult, (Rabs_pos_eq (u0 j)) by (apply u0_nonneg; exact Hj).
      apply Rmult_le_compat_l; [apply u0_nonneg; exact Hj|]. pose proof (HK j Hj). apply Rabs_le. lra.
    - rewrite rsum_scal_r. apply Rmult_le_compat_r; [exact D0|]. rewrite u0_sum. apply Rle_trans with S0; [|exact SL].
      apply Rmult_le_reg_r with (1 + S0); [lra|]. unfold Rdiv. rewrite Rmult_assoc, Rinv_l by lra. nra. }
  unfold Rminus. eapply Rle_trans; [apply Rabs_triang|]. rewrite !Rabs_Ropp.
  assert (B1' : Rabs (dot n (fun i => u i - u0 i) k) <= INR n * (2 * d) / c * 1).
  { eapply Rle_trans; [apply (dot_l1 n _ k 1 Kabs)|]. apply Rmult_le_compat_r; [lra|exact F]. }
  unfold Rminus in B1', B2. eapply Rle_trans; [apply Rplus_le_compat; [exact B1'|exact B2]|]. right. field. lra.
Qed.
End Flat.

Variable ls : lsolver.
Hypothesis EX : exact_solver ls.
Variable knn : dict nnval -> list point -> point -> nat -> list (nat * R).
Variable hnsw : nnval -> list point -> point -> nat -> list (nat * R).
Variable dist : dict nnval -> point -> point -> R.
Hypothesis SK : sklearn_ok knn dist.

(** ** Theorems *)
Lemma noisy_limit en method kw w g K cur test train targets N M n ex nu Y :
  regression en method kw w test train targets N M n ex -> documented g K cur [] train N M n ->
  0 < nu -> noise_at_least (gp_noise g) nu M n ->
  (forall a e, (a < N)%nat -> inb ex e -> Rabs (at_ targets (a :: e)) <= Y) ->
  exists mean var,
    regress_any ls knn hnsw (Univariate (lib_model gamma kv g K cur)) test train w targets = Ok (mean, var) /\
    forall x, (x < M)%nat ->
      gp_var_scale g * (1 - INR n / nu) <= at_ var [x] <= gp_var_scale g /\
      forall e, inb ex e -> Rabs (at_ mean (x :: e)) <= INR n * Y / nu.
Proof.
  intros (Hm & He & Hw & Hn & D1 & D2 & ND & FC & HT & NC) (OK & SKo & K1 & SC & NF & SN) NU NL HY.
  destruct (regress_any_nbr gamma kv ls EX knn hnsw dist SK en method kw w g K cur [] test train targets N M n ex)
    as (mean & var & E & _ & _ & NS & V); auto.
  exists mean, var. split; [exact E|]. intros x Hx. destruct (V x Hx) as (NR & MX & (u & U & VA) & VB).
  set (k := lk_cov gamma kv K (feature_count train) cur []) in *. set (q := nbr knn hnsw w test) in *.
  pose proof (noise_coercive gamma kv K cur (gp_noise g) nu train M n q x OK NL Hx) as CO. fold k in CO.
  assert (KA : forall i, (i < n)%nat -> Rabs (kcov k test train x (q x i)) <= 1).
  { intros i Hi. pose proof (kcov_01 K cur test train x (q x i) _ OK) as B. fold k in B. rewrite Rabs_pos_eq; lra. }
  assert (W : forall v, solves n (nbr_matrix k (gp_noise g) train q x) v (fun j => kcov k test train x (q x j)) -> rsum n (fun i => Rabs (v i)) <= INR n * 1 / nu).
  { intros v Hv. apply (l1_bound n _ _ v nu 1 NU Rle_0_1 CO Hv KA). }
  split.
  - split; [|apply VB]. rewrite VA. apply Rmult_le_compat_l; [exact SC|].
    pose proof (dot_l1 n u _ 1 KA) as B. specialize (W u U). pose proof (Rle_abs (dot n u (fun j => kcov k test train x (q x j)))) as RA. unfold Rdiv in *. lra.
  - intros e He'. destruct (MX e He') as (v & Hv & ->). specialize (W v Hv).
    assert (TY : forall i, (i < n)%nat -> Rabs (at_ targets (q x i :: e)) <= Y) by (intros i Hi; apply HY; [apply NR; exact Hi|exact He']).
    eapply Rle_trans; [apply (dot_l1 n v (fun j => at_ targets (q x j :: e)) Y TY)|].
    assert (Y0 : 0 <= Y) by (eapply Rle_trans; [apply Rabs_pos|apply (TY 0%nat); lia]).
    apply (Rmult_le_compat_r Y) in W; [|exact Y0]. eapply Rle_trans; [exact W|]. right. unfold Rdiv. ring.
Qed.

Lemma flat_limit en method kw w g K cur test train targets N M n ex nu Y L D :
  regression en method kw w test train targets N M n ex -> documented g K cur [] train N M n ->
  0 < nu -> noise_at_least (gp_noise g) nu M n ->
  (forall a e, (a < N)%nat -> inb ex e -> Rabs (at_ targets (a :: e)) <= Y) ->
  0 < L -> (forall f, (f < feature_count train)%nat -> L <= scale_of (lk_def K) cur [] f) ->
  (forall a b, (a < N)%nat -> (b < N)%nat -> euclid (feature_count train) (feature train a) (feature train b) <= D) ->
  (forall x b, (x < M)%nat -> (b < N)%nat -> euclid (feature_count train) (feature test x) (feature train b) <= D) ->
  exists mean var q,
    regress_any ls knn hnsw (Univariate (lib_model gamma kv g K cur)) test train w targets = Ok (mean, var) /\
    forall x, (x < M)%nat -> nearest_rows test train N x n (q x) /\
      let precision := fun j => / noise_at (gp_noise g) None x j in
      Rabs (at_ var [x] - gp_var_scale g / (1 + rsum n precision)) <= gp_var_scale g * (9 * D * INR n / (L * nu)) /\
      forall e, inb ex e ->
        Rabs (at_ mean (x :: e) - rsum n (fun j => precision j * at_ targets (q x j :: e)) / (1 + rsum n precision)) <= 6 * D * INR n * Y / (L * nu).
Proof.
  intros (Hm & He & Hw & Hn & D1 & D2 & ND & FC & HT & NC) (OK & SKo & K1 & SC & NF & SN) NU NL HY L0 HL HD1 HD2.
  destruct (regress_any_nbr gamma kv ls EX knn hnsw dist SK en method kw w g K cur [] test train targets N M n ex)
    as (mean & var & E & _ & _ & NS & V); auto.
  set (q := nbr knn hnsw w test) in *.
  exists mean, var, q. split; [exact E|]. intros x Hx. destruct (V x Hx) as (NR & MX & (u & U & VA) & VB). split; [exact NR|]. intros precision.
  set (k := lk_cov gamma kv K (feature_count train) cur []) in *.
  pose proof (noise_coercive gamma kv K cur (gp_noise g) nu train M n q x OK NL Hx) as CO. fold k in CO.
  set (d := 3 * (D / L)).
  assert (DP : 0 <= D) by (eapply Rle_trans; [|apply (HD2 x 0%nat); [exact Hx|lia]]; unfold euclid; apply sqrt_pos).
  assert (D0 : 0 <= d) by (unfold d; assert (0 <= D / L) by (apply Rmult_le_pos; [exact DP|left; apply Rinv_0_lt_compat; exact L0]); lra).
  assert (NEAR : forall X i b, euclid (feature_count train) (feature X i) (feature train b) <= D -> 1 - d <= kcov k X train i b <= 1).
  { intros X i b HX. split; [|apply (kcov_01 K cur X train i b _ OK)].
    pose proof (lk_near gamma kv K cur [] X train i b L OK L0 HL) as NE. fold k in NE.
    apply (Rmult_le_compat_r (/ L)) in HX; [|left; apply Rinv_0_lt_compat; exact L0]. unfold d. unfold Rdiv in *. lra. }
  assert (QN : forall i, (i < n)%nat -> (q x i < N)%nat) by (intros i Hi; apply NR; exact Hi).
  assert (HK : forall i, (i < n)%nat -> 1 - d <= kcov k test train x (q x i) <= 1) by (intros i Hi; apply NEAR, HD2; auto).
  assert (KA : forall i, (i < n)%nat -> Rabs (kcov k test train x (q x i)) <= 1).
  { intros i Hi. pose proof (kcov_01 K cur test train x (q x i) _ OK) as B. fold k in B. rewrite Rabs_pos_eq; lra. }
  assert (HA : forall i j, (i < n)%nat -> (j < n)%nat -> exists b, 1 - d <= b <= 1 /\
     nbr_matrix k (gp_noise g) train q x i j = b + (if (i =? j)%nat then noise_at (gp_noise g) None x i else 0)).
  { intros i j Hi Hj. exists (kcov k train train (q x i) (q x j)). split; [apply NEAR, HD1; auto|reflexivity]. }
  assert (NUx : forall i, (i < n)%nat -> nu <= noise_at (gp_noise g) None x i) by (intros i Hi; apply NL; auto).
  split.
  - pose proof (flat_var n _ (fun j => kcov k test train x (q x j)) (noise_at (gp_noise g) None x) u nu d NU D0 CO NUx HA HK KA U) as F. fold precision in F.
    rewrite VA. replace (gp_var_scale g * _ - gp_var_scale g / _) with (gp_var_scale g * (1 - dot n u (fun j => kcov k test train x (q x j)) - / (1 + rsum n precision))) by (unfold Rdiv; ring).
    rewrite Rabs_mult, (Rabs_pos_eq (gp_var_scale g)) by exact SC. apply Rmult_le_compat_l; [exact SC|].
    eapply Rle_trans; [exact F|]. right. unfold d. field. split; lra.
  - intros e He'. destruct (MX e He') as (v & Hv & ->).
    assert (TY : forall i, (i < n)%nat -> Rabs (at_ targets (q x i :: e)) <= Y) by (intros i Hi; apply HY; [apply QN; exact Hi|exact He']).
    pose proof (flat_mean n _ (fun j => kcov k test train x (q x j)) (noise_at (gp_noise g) None x) v nu d NU D0 CO NUx HA HK Hv (fun j => at_ targets (q x j :: e)) Y TY) as F.
    fold precision in F. eapply Rle_trans; [exact F|]. right. unfold d. field. split; lra.
Qed.

Lemma span_same K cur p z a F X Y i j : F = feature_count Y -> same_row X Y i j ->
  span (lk_cov gamma kv K F cur []) p z a (feature X i) = span (lk_cov gamma kv K F cur []) p z a (feature Y j).
Proof.
  intros -> SR. unfold span. apply rsum_ext. intros l _. f_equal. apply lk_cov_ext. intros f Hf. rewrite (SR f Hf). reflexivity.
Qed.

(** The prediction at a training row. *)
Lemma training_error en method kw w g K cur test train targets N M n ex :
  regression en method kw w test train targets N M n ex -> documented g K cur [] train N M n ->
  exists mean var q,
    regress_any ls knn hnsw (Univariate (lib_model gamma kv g K cur)) test train w targets = Ok (mean, var) /\
    forall x, (x < M)%nat -> nearest_rows test train N x n (q x) /\
      forall j e, (j < n)%nat -> same_row test train x (q x j) -> inb ex e ->
        at_ var [x] <= gp_var_scale g * noise_at (gp_noise g) None x j /\
        forall p z a,
        let k := lk_cov gamma kv K (feature_count train) cur [] in
        let y := fun b => at_ targets (b :: e) in
        respects (gp_noise g) train x n (q x) y (span k p z a) ->
        (at_ mean (x :: e) - y (q x j)) ^ 2 <= noise_at (gp_noise g) None x j * penalised k (gp_noise g) train x n (q x) y p z a.
Proof.
  intros (Hm & He & Hw & Hn & D1 & D2 & ND & FC & HT & NC) (OK & SKo & K1 & SC & NF & SN).
  destruct (regress_any_nbr gamma kv ls EX knn hnsw dist SK en method kw w g K cur [] test train targets N M n ex)
    as (mean & var & E & _ & _ & NS & V); auto.
  set (q' := nbr knn hnsw w test) in *.
  exists mean, var, q'. split; [exact E|]. intros x Hx. destruct (V x Hx) as (NR & MX & (u & U & VA) & _). split; [exact NR|].
  assert (N0 : forall i, (i < n)%nat -> 0 <= noise_at (gp_noise g) None x i).
  { intros i Hi. destruct SN as [P|[P _]]; [left|]; apply P; assumption. }
  assert (WP : well_posed (gp_noise g) train M n q') by (apply (sound_well_posed _ test train N); auto; intros t Ht; apply V; auto).
  destruct (error_optimal gamma kv K cur [] (gp_noise g) test train M x n q' u OK WP Hx U) as [EE OPT].
  intros j e Hj SR He'. split.
  - rewrite VA, <- EE. apply Rmult_le_compat_l; [exact SC|]. eapply Rle_trans; [apply (OPT (fun i => delta i j))|].
    unfold error_variance.
    rewrite (rsum_delta n j (fun i => kcov _ test train x (q' x i))) by exact Hj.
    rewrite (rsum_ext n _ (fun i => delta i j * rsum n (fun l => delta l j * obs_cov (lk_cov gamma kv K (feature_count train) cur []) (gp_noise g) train x (q' x) i l))).
    2:{ intros i Hi. rewrite <- rsum_scal. apply rsum_ext. intros; ring. }
    rewrite (rsum_delta n j (fun i => rsum n (fun l => delta l j * obs_cov _ (gp_noise g) train x (q' x) i l))) by exact Hj.
    rewrite (rsum_delta n j (fun l => obs_cov _ (gp_noise g) train x (q' x) j l)) by exact Hj.
    unfold obs_cov. rewrite Nat.eqb_refl. unfold kcov.
    rewrite (lk_cov_0 gamma kv K _ cur [] (feature test) x OK), (lk_cov_0 gamma kv K _ cur [] (feature train) (q' x j) OK).
    rewrite (lk_cov_ext gamma kv K (feature_count train) cur [] (fun f => feature test x f - feature train (q' x j) f) (fun f => feature train (q' x j) f - feature train (q' x j) f)).
    2:{ intros f Hf. rewrite (SR f Hf). reflexivity. }
    rewrite (lk_cov_0 gamma kv K _ cur [] (feature train) (q' x j) OK). lra.
  - intros p z b k y RS.
    set (A := nbr_matrix k (gp_noise g) train q' x). set (al := coefs ls n A (fun i => y (q' x i))).
    pose proof (coefs_ok ls EX n A (fun i => y (q' x i)) (NS x Hx)) as SO. fold al in SO.
    assert (EM : at_ mean (x :: e) = span k n (fun i => feature train (q' x i)) al (feature train (q' x j))).
    { rewrite <- (span_same K cur n _ al _ test train x (q' x j) eq_refl SR).
      destruct (MX e He') as (v & Hv & ->).
      pose proof (nbr_sym gamma kv K (feature_count train) cur [] (gp_noise g) train n q' x) as SY.
      pose proof (symmetric_adjoint n A v al _ _ SY Hv SO) as T. eapply eq_trans; [exact T|]. unfold dot, span. apply rsum_ext. intros i Hi. unfold kcov, k. ring. }
    pose proof (fit_at gamma kv K cur (gp_noise g) train x n (q' x) y al SO j Hj) as FA. cbv zeta beta in FA. fold k in FA.
    rewrite EM, FA.
    destruct (fit_best gamma kv K cur (gp_noise g) train x n (q' x) y al OK N0 SO) as (_ & BF). destruct (BF p z b RS) as (LE & _). clear BF. fold k in LE.
    set (nj := noise_at (gp_noise g) None x j) in *.
    assert (P : nj * al j ^ 2 <= penalised k (gp_noise g) train x n (q' x) y n (fun i => feature train (q' x i)) al).
    { unfold penalised. pose proof (psd_quad gamma kv K _ cur [] n (fun i => feature train (q' x i)) al OK) as PQ. fold k in PQ.
      assert (T : nj * al j ^ 2 <= misfit (gp_noise g) train x n (q' x) y (span k n (fun i => feature train (q' x i)) al)); [|lra].
      unfold misfit.
      rewrite (rsum_ext n _ (fun i => noise_at (gp_noise g) None x i * al i ^ 2)).
      2:{ intros i Hi. pose proof (fit_at gamma kv K cur (gp_noise g) train x n (q' x) y al SO i Hi) as FI. cbv zeta beta in FI. fold k in FI. rewrite FI.
          destruct (Req_dec (noise_at (gp_noise g) None x i) 0) as [Z|NZ]; [rewrite Z; unfold Rdiv; ring|field; exact NZ]. }
      apply (rsum_term_le n (fun i => noise_at (gp_noise g) None x i * al i ^ 2) j); [|exact Hj].
      intros i Hi. apply Rmult_le_pos; [apply N0; exact Hi|apply pow2_ge_0]. }
    replace ((y (q' x j) - nj * al j - y (q' x j)) ^ 2) with (nj * (nj * al j ^ 2)) by ring.
    apply Rmult_le_compat_l; [apply N0; exact Hj|lra].
Qed.
End L.
