(** Proofs about the complete fast-prediction workflow. *)
From Coq Require Import Lia Lra.
From Verif Require Import Base BaseFacts NdModel NdFacts RSum LinAlgModel LinAlgSpec LinAlgFacts
  GPModel NoiseModel MuyGPSModel MuyGPSProofs GPSpec GPTheorems FastProofs TensorModel TensorSpec TensorProofs
  KernelModel KernelSpec FlowModel FlowSpec FlowProofs PointwiseSpec LibSpec LibProofs MultiModel MultiProofs DriverModel DriverProofs
  WorkModel WorkSpec WorkProofs WorkLemmas NeighborsModel NeighborsSpec NeighborsProofs BatchProofs BatchLemmas TrainSpec TrainProofs3 FastWorkModel.
Local Open Scope R_scope.

Section Q.
Variable knn : dict nnval -> list point -> point -> nat -> list (nat * R).
Variable hnsw : nnval -> list point -> point -> nat -> list (nat * R).
Variable dist : dict nnval -> point -> point -> R.
Hypothesis Hsk : sklearn_ok knn dist.

(** The neighbours of all training rows. *)
Lemma all_rows en method kw w train N n :
  lower method = "exact"%string -> euclidean_kw kw -> nn_init en (rows_of train) n method kw = Ok w -> (n + 1 <= N)%nat ->
  dataset train N -> distinct_rows train N (fun i => i) ->
  exists I D, get_batch_nns knn hnsw w (seq 0 N) = Ok (I, D) /\ nn_count w = n /\
    index_matrix (index_array n I) N n N (fun c j => nth j (nth c I []) O) /\
    forall c, (c < N)%nat -> nearest_others train N c n (fun j => nth j (nth c I []) O).
Proof.
  intros Hm He Hi Hn Dr DR.
  assert (CW : nn_count w = n) by (destruct (nn_init_exact _ _ _ _ _ _ Hm Hi) as [rows [Er ->]]; reflexivity).
  destruct (get_batch_nns_spec knn hnsw dist Hsk en (rows_of train) n method kw w (seq 0 N) Hm He Hi) as (rows & Er & SP).
  rewrite (rows_of_ok _ _ Dr) in Er. injection Er as <-. rewrite map_length, seq_length in SP.
  destruct (SP Hn) as (I & D & EG & LI & LD & NE).
  { intros E. apply (f_equal (@List.length nat)) in E. rewrite seq_length in E. cbn in E. lia. }
  { intros a Ha. apply in_seq in Ha. lia. }
  { intros i j Hi' Hj' Hij. rewrite !row_pts_nth by auto. rewrite row_dist_sq by auto. intros Z.
    destruct (DR i j Hi' Hj' Hij) as (f & Hf & NF). apply NF. apply (row_dist_zero train train i j Z f Hf). }
  rewrite ?seq_length in LI. rewrite ?seq_length in LD. rewrite ?seq_length in NE.
  assert (NO : forall c, (c < N)%nat -> nearest_others train N c n (fun j => nth j (nth c I []) O)).
  { intros x Hx. specialize (NE x Hx). cbn beta in NE. rewrite seq_nth in NE by auto. cbn [plus] in NE. rewrite row_pts_nth in NE by auto.
    pose proof NE as (LC & _). apply nearest_others_of in NE; [|auto].
    assert (EQ : forall j, (j < n)%nat -> nth j (map fst (combine (nth x I []) (nth x D []))) O = nth j (nth x I []) O).
    { intros j Hj. apply nth_combine_fst. lia. }
    destruct NE as (N1 & N2 & N3 & N4). split; [|split; [|split]].
    - intros j Hj. rewrite <- EQ by auto. auto.
    - intros i j Hi1 Hj1. rewrite <- !EQ by auto. auto.
    - intros i j Hij Hj. rewrite <- !EQ by lia. apply N3; auto.
    - intros a Ha Hac NA j Hj. rewrite <- EQ by auto. apply N4; auto. intros i Hi1. rewrite EQ by auto. auto. }
  exists I, D. split; [exact EG|]. split; [exact CW|]. split; [|exact NO].
  split; [cbn [index_array shape]; rewrite LI; reflexivity|]. intros x j Hx Hj. split; [reflexivity|]. apply (NO x Hx); auto.
Qed.

Lemma self_well_posed m train N n q : distinct_rows train N (fun i => i) -> (forall x i, 0 <= noise_at m None x i) ->
  (forall c, (c < N)%nat -> nearest_others train N c n (q c)) -> well_posed m train N n (with_self q).
Proof.
  intros DR NP NO c Hc. right. split; [intros; apply NP|]. destruct (NO c Hc) as (B & I & _).
  intros i j Hi Hj Hij. apply DR.
  - destruct i as [|i]; cbn [with_self]; [auto|apply B; lia].
  - destruct j as [|j]; cbn [with_self]; [auto|apply B; lia].
  - destruct i as [|i], j as [|j]; cbn [with_self]; [lia| | |].
    + intros E. symmetry in E. revert E. apply B; lia.
    + apply B; lia.
    + intros E. apply I in E; lia.
Qed.

Lemma nearest_first test train N x n q a : nearest_rows test train N x n q -> (0 < n)%nat -> (a < N)%nat ->
  feature_count test = feature_count train -> distinct_rows train N (fun i => i) -> same_row test train x a -> q O = a.
Proof.
  intros NR Hn Ha FC DI SR. destruct (nearest_self test train N x n q a NR Hn Ha FC DI SR) as (j & Hj & QJ).
  destruct NR as (B & I & SS & OUT). destruct (Nat.eq_dec (q O) a) as [|NE]; [auto|]. exfalso.
  specialize (SS O j ltac:(lia) Hj). rewrite QJ, (row_dist_refl test train x a SR) in SS.
  pose proof (row_dist_nonneg test train x (q O)) as P.
  assert (Z : row_dist test train x (q O) = 0) by lra. apply row_dist_zero in Z.
  destruct (DI (q O) a (B O Hn) Ha NE) as (f & Hf & NF). apply NF.
  rewrite <- (Z f ltac:(try rewrite FC; exact Hf)). apply SR. try rewrite FC. exact Hf.
Qed.
End Q.

Section W.
Variables (gamma : R -> R) (kv : R -> R -> R).
Variable ls : lsolver.
Hypothesis EX : exact_solver ls.
Variable knn : dict nnval -> list point -> point -> nat -> list (nat * R).
Variable hnsw : nnval -> list point -> point -> nat -> list (nat * R).
Variable dist : dict nnval -> point -> point -> R.
Hypothesis Hsk : sklearn_ok knn dist.

Lemma fast_any_uni en method kw w g K cur test train targets F N M n r :
  lower method = "exact"%string -> euclidean_kw kw -> nn_init en (rows_of train) n method kw = Ok w -> (1 < n)%nat -> (n + 1 <= N /\ 0 < M)%nat ->
  shape test = [M; F] -> shape train = [N; F] -> shape targets = [N; r] -> M <> 1%nat -> distinct_rows train N (fun i => i) ->
  lk_ok K F cur [] -> noise_fits (gp_noise g) N n -> (forall x i, 0 <= noise_at (gp_noise g) None x i) ->
  exists mean C q p coef,
    work_fast_any ls knn hnsw (Univariate (lib_model gamma kv g K cur)) test train w targets = Ok (mean, C) /\
    shape mean = (if (r =? 1)%nat then [M] else [M; r]) /\ shape C = (if (r =? 1)%nat then [N; n] else [N; n; r]) /\
    (forall c, (c < N)%nat -> nearest_others train N c n (q c) /\
       forall s, (s < r)%nat ->
         (forall j, (j < n)%nat -> at_ C (if (r =? 1)%nat then [c; j] else [c; j; s]) = coef c j s) /\
         solves n (nbr_matrix (lk_cov gamma kv K F cur []) (gp_noise g) train (with_self q) c) (fun j => coef c j s)
           (fun j => at_ targets [with_self q c j; s])) /\
    (forall x, (x < M)%nat -> nearest_rows test train N x n (p x) /\
       forall s, (s < r)%nat -> at_ mean (out_idx r x s) =
         rsum n (fun j => kcov (lk_cov gamma kv K F cur []) test train x (with_self (with_self q) (p x O) j) * coef (p x O) j s)).
Proof.
  intros Hm He Hi Hn1 Hn St Sx HT HM DR OK NF NP.
  assert (D1 : dataset test M) by (right; eauto). assert (D2 : dataset train N) by (right; eauto).
  assert (FC1 : feature_count test = F) by (unfold feature_count; rewrite St; reflexivity).
  assert (FC2 : feature_count train = F) by (unfold feature_count; rewrite Sx; reflexivity).
  destruct (all_rows knn hnsw dist Hsk en method kw w train N n Hm He Hi (proj1 Hn) D2 DR) as (I & D & EB & CW & IB & NO).
  destruct (lookup_rows knn hnsw dist Hsk en method kw w test train N M n Hm He Hi ltac:(lia) D1 D2) as (I' & D' & EG & _ & IM & NR); [congruence|].
  set (q := fun c j => nth j (nth c I []) O) in *. set (p := nbr knn hnsw w test) in *. set (k := lk_cov gamma kv K F cur []).
  assert (En : S (n - 1) = n) by lia.
  assert (PK : pointwise_kernel F (lk_call gamma kv K cur []) k) by (apply lk_pointwise; auto).
  assert (NS : forall c, (c < N)%nat -> nonsingular n (nbr_matrix k (gp_noise g) train (with_self q) c)).
  { unfold k. rewrite <- FC2 in OK |- *. apply well_posed_ns; auto. apply self_well_posed; auto. }
  pose proof (update_matrix (index_array n I) N (n - 1) N q) as UM. rewrite En in UM. specialize (UM IB ltac:(lia)).
  pose proof (update_matrix (fast_nn_update (index_array n I)) N (n - 1) N (with_self q)) as UM2. rewrite En in UM2. specialize (UM2 UM ltac:(lia)).
  destruct (coefficients_from ls EX g F (lk_call gamma kv K cur []) k train targets _ N n _ r PK D2 FC2 HT UM ltac:(lia) ltac:(lia) NF NS)
    as (C & coef & EC & SC & HC & Hs).
  pose proof (first_column_ok (index_array n I') M (n - 1) N p) as FO. rewrite En in FO. destruct (FO IM) as (cl & Ecl & Scl & Hcl).
  destruct (take_matrix _ N n N _ cl M (fun x => p x O) UM2 Scl Hcl) as (sel & Esel & Hsel).
  destruct (predict_from F (lk_call gamma kv K cur []) k test train sel cl C coef M N n (fun x j => with_self (with_self q) (p x O) j) r (fun x => p x O) PK) as (out & Eo & So & Ho);
    try exact Hsel; auto; try lia.
  { unfold ndim. rewrite St, Sx. reflexivity. }
  exists out, C, q, p, coef. split.
  { unfold work_fast_any, make_fast. rewrite Sx. rewrite EB. cbn [bind fst snd]. rewrite CW. cbn [lib_model mm_gp mm_kernel].
    rewrite EC. cbn [bind fst snd]. rewrite EG. cbn [bind fst]. rewrite Ecl. cbn [bind]. rewrite Esel. cbn [bind]. rewrite St.
    cbn [made_fast_mean_from_indices lib_model mm_kernel]. rewrite Eo. reflexivity. }
  split; [exact So|]. split; [exact SC|]. split.
  - intros c Hc. split; [apply NO; auto|]. intros s Hs'. split; [intros j Hj; apply HC; auto|apply Hs; auto].
  - intros x Hx. split; [apply NR; auto|]. intros s Hs'. apply Ho; auto.
Qed.

Lemma fast_manual_uni en method kw w g K cur test train targets N M n r :
  lower method = "exact"%string -> euclidean_kw kw -> nn_init en (rows_of train) n method kw = Ok w -> (1 < n)%nat -> (n + 1 <= N /\ 0 < M)%nat ->
  dataset test M -> dataset train N -> ndim test = ndim train -> feature_count test = feature_count train -> shape targets = [N; r] ->
  M <> 1%nat -> distinct_rows train N (fun i => i) ->
  lk_ok K (feature_count train) cur [] -> noise_fits (gp_noise g) N n -> (forall x i, 0 <= noise_at (gp_noise g) None x i) ->
  let k := lk_cov gamma kv K (feature_count train) cur [] in
  exists mean q p,
    work_fast_manual ls knn hnsw (lib_model gamma kv g K cur) test train w targets = Ok mean /\
    shape mean = (if (r =? 1)%nat then [M] else [M; r]) /\
    (forall c, (c < N)%nat -> nearest_others train N c n (q c)) /\
    (forall x, (x < M)%nat -> nearest_rows test train N x n (p x) /\
       forall s, (s < r)%nat ->
         kriging n (nbr_matrix k (gp_noise g) train (with_self q) (p x O))
           (fun j => kcov k test train x (with_self q (p x O) j)) (fun j => at_ targets [with_self q (p x O) j; s])
           (at_ mean (out_idx r x s))) /\
    ((forall x i, noise_at (gp_noise g) None x i = 0) -> forall x a s, (x < M)%nat -> (a < N)%nat -> same_row test train x a -> (s < r)%nat ->
       at_ mean (out_idx r x s) = at_ targets [a; s]).
Proof.
  intros Hm He Hi Hn1 Hn D1 D2 ND FC HT HM DR OK NF NP k.
  destruct (all_rows knn hnsw dist Hsk en method kw w train N n Hm He Hi (proj1 Hn) D2 DR) as (I & D & EB & CW & IB & NO).
  destruct (lookup_rows knn hnsw dist Hsk en method kw w test train N M n Hm He Hi ltac:(lia) D1 D2 FC) as (I' & D' & EG & _ & IM & NR).
  set (q := fun c j => nth j (nth c I []) O) in *. set (p := nbr knn hnsw w test) in *.
  assert (En : S (n - 1) = n) by lia.
  assert (PK : pointwise_kernel (feature_count train) (lk_call gamma kv K cur []) k) by (apply lk_pointwise; auto).
  assert (NS : forall c, (c < N)%nat -> nonsingular n (nbr_matrix k (gp_noise g) train (with_self q) c)).
  { apply well_posed_ns; auto. apply self_well_posed; auto. }
  pose proof (manual_kriging ls EX g (feature_count train) (lk_call gamma kv K cur []) k (index_array n I) (index_array n I') test train targets N M (n - 1) (n - 1) q p r) as MV.
  rewrite En in MV. destruct MV as (out & Eo & So & Ho); auto; try lia.
  { intros i j. apply lk_cov_sym. }
  exists out, q, p. split.
  { unfold work_fast_manual. rewrite (row_count_ok _ _ D2). cbn [bind]. rewrite EB. cbn [bind]. rewrite EG. cbn [bind fst]. rewrite CW. exact Eo. }
  split; [exact So|]. split; [exact NO|]. split.
  { intros x Hx. split; [apply NR; auto|]. intros s Hs. apply Ho; auto. }
  intros NZ x a s Hx Ha SR Hs.
  pose proof (nearest_first test train N x n (p x) a (NR x Hx) ltac:(lia) Ha FC DR SR) as PA.
  destruct (Ho x s Hx Hs) as (wv & W & V). rewrite V. rewrite PA in *.
  assert (UNIT : forall i, (i < n)%nat -> wv i = delta i 0).
  { apply (solves_unit n _ _ O (NS a Ha) ltac:(lia)) with (2 := W). intros i Hi'. unfold nbr_matrix, plus_diag. rewrite NZ.
    rewrite (lk_cov_sym gamma kv K (feature_count train) cur [] train). fold k. cbn [with_self].
    transitivity (kcov k train train a (with_self q a i)).
    - unfold kcov. apply (proj1 PK). intros f Hf. rewrite (SR f Hf). reflexivity.
    - destruct (Nat.eqb i 0); ring. }
  unfold dot. rewrite (rsum_ext n _ (fun i => delta i 0 * at_ targets [with_self q a i; s])).
  - rewrite rsum_delta by lia. reflexivity.
  - intros i Hi'. rewrite UNIT by auto. reflexivity.
Qed.

(** ** Multivariate models *)
Lemma coeffs_column g Kin c b n : b <> 1%nat -> n <> 1%nat -> noise_fits (gp_noise g) b n -> shape Kin = [b; n; n] -> shape c = [b; n] ->
  (forall x, (x < b)%nat -> nonsingular n (noisy (gp_noise g) Kin x)) ->
  exists C, gp_fast_coefficients ls g Kin c = Ok C /\ shape C = [b; n].
Proof.
  intros Hb Hn NF SK SC NS.
  destruct (solve3 ls EX (gp_noise g) Kin (expand_last c) b n 1 NF SK) as (Kp & X & EK & EX' & SX & _); auto.
  { cbn. rewrite SC. reflexivity. }
  unfold gp_fast_coefficients. rewrite EK. cbn [bind]. unfold fast_precompute. unfold ndim. rewrite SC. cbn [List.length Nat.eqb].
  rewrite EX'. cbn [bind]. eexists. split; [reflexivity|]. unfold squeeze, squeeze_shape. cbn [shape]. rewrite SX. cbn [filter].
  destruct (Nat.eqb_spec b 1); [contradiction|]. destruct (Nat.eqb_spec n 1); [contradiction|]. reflexivity.
Qed.

Lemma assign_full (x y : nd R) b n r i : shape x = [b; n; r] -> shape y = [b; n] -> (i < r)%nat -> exists z, assign_last x y i = Ok z.
Proof.
  intros Sx Sy Hi. unfold assign_last. rewrite Sx, Sy. cbn [last removelast].
  destruct (Nat.leb_spec r i); [lia|]. rewrite bshape_refl. destruct (list_eq_dec _ _ _) as [|N]; [eauto|exfalso; apply N; reflexivity].
Qed.

Lemma kcross_total (cw acc : nd R) b n r (ms : list (gp * libkernel * (nat -> R))) : forall i,
  shape acc = [b; n; r] -> (i + List.length ms <= r)%nat ->
  (forall g K cur, In (g, K, cur) ms -> exists Kc, lk_call gamma kv K cur [] cw = Ok Kc /\ shape Kc = [b; n]) ->
  mm_kcross_loop cw acc i (map (fun e => lib_model gamma kv (fst (fst e)) (snd (fst e)) (snd e)) ms) = Ok tt.
Proof.
  induction ms as [|[[g K] cur] ms IH]; intros i SA HL HK; cbn [map mm_kcross_loop fst snd]; [reflexivity|].
  cbn [List.length] in HL. destruct (HK g K cur (or_introl eq_refl)) as (Kc & E & SK). cbn [lib_model mm_kernel]. rewrite E. cbn [bind].
  destruct (assign_full acc Kc b n r i SA SK ltac:(lia)) as (z & ->). cbn [bind]. apply IH; auto; [lia|]. intros g' K' cur' H. apply (HK g'). right. exact H.
Qed.

Lemma doubled_noise F train N n q g K cur : shape train = [N; F] -> lk_ok K F cur [] -> uniform_noise (gp_noise g) ->
  (forall x i, 0 <= noise_at (gp_noise g) None x i) -> distinct_rows train N (fun i => i) ->
  (forall c, (c < N)%nat -> nearest_others train N c n (q c)) ->
  forall Kin pK, shape Kin = [N; n; n] ->
  (forall x i j, (x < N)%nat -> (i < n)%nat -> (j < n)%nat ->
     at_ Kin [x; i; j] = kcov (lk_cov gamma kv K F cur []) train train (with_self q x i) (with_self q x j)) ->
  (forall x i j, (x < N)%nat -> (i < n)%nat -> (j < n)%nat ->
      at_ pK [x; i; j] = at_ Kin [x; i; j] + (if Nat.eqb i j then noise_at (gp_noise g) None x i else 0)) ->
  forall x, (x < N)%nat -> nonsingular n (noisy (gp_noise g) pK x).
Proof.
  intros Sx OK UN NP DR NO Kin pK SK HK HP x Hx.
  assert (FC2 : feature_count train = F) by (unfold feature_count; rewrite Sx; reflexivity).
  set (v := noise_at (gp_noise g) None x O).
  assert (NV : forall i, noise_at (gp_noise g) None x i = v).
  { intros i. unfold v. destruct UN as [-> | [u ->]]; reflexivity. }
  assert (NS : nonsingular n (nbr_matrix (lk_cov gamma kv K F cur []) (HomoscedasticNoise (v + v)) train (with_self q) x)).
  { rewrite <- FC2 in OK |- *. apply well_posed_ns with (t := N); auto. apply self_well_posed; auto.
    intros; cbn. pose proof (NP x O). fold v in H. lra. }
  apply (nonsingular_ext n _ _) with (2 := NS). intros i j Hi Hj. unfold noisy, nbr_matrix, plus_diag, rowmat. rewrite HP, HK by auto.
  cbn [noise_at]. rewrite !NV. destruct (Nat.eqb i j); ring.
Qed.

Lemma nonempty_case {A B} (l : list A) (a b : B) : l <> [] -> match l with [] => a | _ => b end = b.
Proof. destruct l; [contradiction|reflexivity]. Qed.

Lemma fast_any_multi en method kw w (ms : list (gp * libkernel * (nat -> R))) test train targets F N M n r :
  lower method = "exact"%string -> euclidean_kw kw -> nn_init en (rows_of train) n method kw = Ok w -> (1 < n)%nat -> (n + 1 <= N /\ 0 < M)%nat ->
  shape test = [M; F] -> shape train = [N; F] -> shape targets = [N; r] -> ms <> [] -> (List.length ms <= r)%nat -> distinct_rows train N (fun i => i) ->
  (forall g K cur, In (g, K, cur) ms -> lk_ok K F cur [] /\ uniform_noise (gp_noise g) /\ (forall x i, 0 <= noise_at (gp_noise g) None x i)) ->
  exists mean C,
    work_fast_any ls knn hnsw (Multivariate (map (fun e => lib_model gamma kv (fst (fst e)) (snd (fst e)) (snd e)) ms)) test train w targets = Ok (mean, C) /\
    shape mean = [M; r] /\ shape C = [N; n; r] /\ (forall idx, at_ mean idx = 0) /\ (forall idx, at_ C idx = 0).
Proof.
  intros Hm He Hi Hn1 Hn St Sx HT NE HL DR Hms.
  assert (D1 : dataset test M) by (right; eauto). assert (D2 : dataset train N) by (right; eauto).
  assert (FC1 : feature_count test = F) by (unfold feature_count; rewrite St; reflexivity).
  assert (FC2 : feature_count train = F) by (unfold feature_count; rewrite Sx; reflexivity).
  destruct (all_rows knn hnsw dist Hsk en method kw w train N n Hm He Hi (proj1 Hn) D2 DR) as (I & D & EB & CW & IB & NO).
  destruct (lookup_rows knn hnsw dist Hsk en method kw w test train N M n Hm He Hi ltac:(lia) D1 D2) as (I' & D' & EG & _ & IM & NR); [congruence|].
  set (q := fun c j => nth j (nth c I []) O) in *. set (p := nbr knn hnsw w test) in *.
  assert (En : S (n - 1) = n) by lia.
  pose proof (update_matrix (index_array n I) N (n - 1) N q) as UM. rewrite En in UM. specialize (UM IB ltac:(lia)).
  pose proof (update_matrix (fast_nn_update (index_array n I)) N (n - 1) N (with_self q)) as UM2. rewrite En in UM2. specialize (UM2 UM ltac:(lia)).
  pose proof (first_column_ok (index_array n I') M (n - 1) N p) as FO. rewrite En in FO. destruct (FO IM) as (cl & Ecl & Scl & Hcl).
  destruct (take_matrix _ N n N _ cl M (fun x => p x O) UM2 Scl Hcl) as (sel & Esel & Hsel).
  destruct (target_tensor targets (fast_nn_update (index_array n I)) N N n (with_self q) r HT UM) as (T & ET & ST & HTv).
  assert (PWX : exists pw, pairwise_tensor train (fast_nn_update (index_array n I)) = Ok pw /\
     forall g K cur, In (g, K, cur) ms -> exists Kin, lk_call gamma kv K cur [] pw = Ok Kin /\ shape Kin = [N; n; n] /\
       forall x i j, (x < N)%nat -> (i < n)%nat -> (j < n)%nat ->
         at_ Kin [x; i; j] = kcov (lk_cov gamma kv K F cur []) train train (with_self q x i) (with_self q x j)).
  { destruct ms as [|[[g0 K0] c0] ms0] eqn:Ems; [contradiction|].
    destruct (Hms g0 K0 c0 (or_introl eq_refl)) as (OK0 & _).
    destruct (pairwise_kernel F (lk_call gamma kv K0 c0 []) (lk_cov gamma kv K0 F c0 []) train _ N N n _ (lk_pointwise gamma kv K0 F c0 [] OK0) D2 FC2 UM) as (pw & _ & Epw & _).
    exists pw. split; [exact Epw|]. intros g K cur HIn. destruct (Hms g K cur HIn) as (OK & _).
    destruct (pairwise_kernel F (lk_call gamma kv K cur []) (lk_cov gamma kv K F cur []) train _ N N n _ (lk_pointwise gamma kv K F cur [] OK) D2 FC2 UM) as (pw' & Kin & Epw' & EK & SK & HK).
    rewrite Epw in Epw'. injection Epw' as <-. exists Kin. auto. }
  destruct PWX as (pw & Epw & HPW).
  assert (CWX : exists cw, crosswise_tensor test train (arange M) sel = Ok cw /\
     forall g K cur, In (g, K, cur) ms -> exists Kc, lk_call gamma kv K cur [] cw = Ok Kc /\ shape Kc = [M; n]).
  { assert (NDt : ndim test = ndim train) by (unfold ndim; rewrite St, Sx; reflexivity).
    assert (AR : forall x, (x < M)%nat -> at_ (arange M) [x] = Z.of_nat x /\ (x < M)%nat) by (intros x Hx; split; [reflexivity|auto]).
    destruct ms as [|[[g0 K0] c0] ms0] eqn:Ems; [contradiction|].
    destruct (Hms g0 K0 c0 (or_introl eq_refl)) as (OK0 & _).
    destruct (crosswise_kernel F (lk_call gamma kv K0 c0 []) (lk_cov gamma kv K0 F c0 []) test train (arange M) sel M N M n (fun x => x) (fun x j => with_self (with_self q) (p x O) j)
      (lk_pointwise gamma kv K0 F c0 [] OK0)) as (cw & _ & Ecw & _); auto.
    exists cw. split; [exact Ecw|]. intros g K cur HIn. destruct (Hms g K cur HIn) as (OK & _).
    destruct (crosswise_kernel F (lk_call gamma kv K cur []) (lk_cov gamma kv K F cur []) test train (arange M) sel M N M n (fun x => x) (fun x j => with_self (with_self q) (p x O) j)
      (lk_pointwise gamma kv K F cur [] OK)) as (cw' & Kc & Ecw' & EK & SK & _); auto.
    rewrite Ecw in Ecw'. injection Ecw' as <-. exists Kc. auto. }
  destruct CWX as (cw & Ecw & HCW).
  assert (CO : forall acc l i, shape acc = [N; n; r] -> (i + List.length l <= r)%nat -> (forall e, In e l -> In e ms) ->
     mm_coeff_loop ls pw T acc i (map (fun e => lib_model gamma kv (fst (fst e)) (snd (fst e)) (snd e)) l) = Ok tt).
  { intros acc l. induction l as [|[[g K] cur] l IH]; intros i SA HLi SUB; cbn [map mm_coeff_loop fst snd]; [reflexivity|].
    cbn [List.length] in HLi. destruct (Hms g K cur (SUB _ (or_introl eq_refl))) as (OK & UN & NP).
    destruct (HPW g K cur (SUB _ (or_introl eq_refl))) as (Kin & EK & SK & HK). cbn [lib_model mm_kernel mm_gp]. rewrite EK. cbn [bind].
    destruct (perturb3 (gp_noise g) None Kin N n (uniform_fits _ _ _ UN) SK) as (pK & EP & SP & HP). rewrite EP. cbn [bind].
    unfold column. rewrite ST. destruct (Nat.leb_spec r i); [lia|]. cbn [bind].
    destruct (coeffs_column g pK (mkNd [N; n] (fun idx => at_ T (idx ++ [i]))) N n ltac:(lia) ltac:(lia) (uniform_fits _ _ _ UN) SP eq_refl) as (y & EY & SY).
    { apply (doubled_noise F train N n q g K cur Sx OK UN NP DR NO Kin pK SK HK HP). }
    rewrite EY. cbn [bind]. destruct (assign_full acc y N n r i SA SY ltac:(lia)) as (z & ->). cbn [bind].
    apply IH; auto; [lia|]. intros e He'. apply SUB. right. exact He'. }
  set (mk := fun e : gp * libkernel * (nat -> R) => lib_model gamma kv (fst (fst e)) (snd (fst e)) (snd e)) in *.
  destruct (take_ok (zeros [N; n; r]) cl N [n; r] eq_refl) as (tk & ETK & STK & _).
  { intros idx Hidx. rewrite Scl in Hidx. apply inb_inv1 in Hidx as (x & -> & Hx). destruct (Hcl x Hx) as [-> Hl]. apply in_range_of_nat; auto. }
  rewrite Scl in STK. cbn [app] in STK.
  assert (EM : exists mean, mm_fast_mean (map mk ms) cw tk = Ok mean /\ shape mean = [M; r]).
  { unfold mm_fast_mean, mk. rewrite STK. rewrite (kcross_total cw (zeros (M :: [n; r])) M n r ms 0 eq_refl ltac:(lia) HCW). cbn [bind].
    unfold mm_fast_posterior_mean, einsum_ijk_ijk. cbn [zeros shape]. rewrite STK, !edim_refl. eexists. split; reflexivity. }
  destruct EM as (mean & EM & SM).
  assert (COm : mm_coeff_loop ls pw T (zeros [N; n; r]) 0 (map mk ms) = Ok tt) by (apply CO; auto).
  exists mean, (zeros [N; n; r]). split.
  { unfold work_fast_any, make_fast. rewrite Sx, EB. cbn [bind fst snd]. rewrite CW. unfold fast_multivariate_from.
    rewrite (nonempty_case (map mk ms)) by (destruct ms; [contradiction|discriminate]). rewrite Epw. cbn [bind]. rewrite ET. cbn [bind].
    unfold mm_fast_coefficients. rewrite ST. rewrite COm. cbn [bind fst snd].
    rewrite EG. cbn [bind fst]. rewrite Ecl. cbn [bind]. rewrite Esel. cbn [bind]. rewrite St. unfold made_fast_mean_from_indices.
    rewrite (nonempty_case (map mk ms)) by (destruct ms; [contradiction|discriminate]). rewrite Ecw. cbn [bind]. rewrite ETK. cbn [bind]. rewrite EM. reflexivity. }
  split; [exact SM|]. split; [reflexivity|]. split; [apply (mm_fast_mean_zero _ _ _ _ EM)|reflexivity].
Qed.
End W.

(** Two neighbours, no noise, a test row that is a training row. *)
Lemma fast_two (gamma : R -> R) (kv : R -> R -> R) K F cur g test train targets N n r q p coef mean x a s :
  shape train = [N; F] -> feature_count test = F -> lk_ok K F cur [] -> n = 2%nat ->
  (forall x i, noise_at (gp_noise g) None x i = 0) ->
  same_row test train x a -> p O = a -> (s < r)%nat ->
  solves n (nbr_matrix (lk_cov gamma kv K F cur []) (gp_noise g) train (with_self q) a) (fun j => coef a j s)
           (fun j => at_ targets [with_self q a j; s]) ->
  mean = rsum n (fun j => kcov (lk_cov gamma kv K F cur []) test train x (with_self (with_self q) (p O) j) * coef (p O) j s) ->
  mean * (1 + kcov (lk_cov gamma kv K F cur []) train train a (q a O)) = at_ targets [a; s] + at_ targets [q a O; s].
Proof.
  intros Sx FC1 OK -> NZ SR PA Hs SOL ->. rewrite PA.
  assert (FC2 : feature_count train = F) by (unfold feature_count; rewrite Sx; reflexivity).
  set (k := lk_cov gamma kv K F cur []) in *.
  assert (PK : pointwise_kernel F (lk_call gamma kv K cur []) k) by (apply lk_pointwise; auto).
  assert (D0 : forall c, kcov k train train c c = 1) by (intros c; unfold k; rewrite <- FC2 in OK |- *; apply lk_cov_0; auto).
  assert (SYM : forall i j, kcov k train train i j = kcov k train train j i) by (intros i j; unfold k; rewrite <- FC2; apply lk_cov_sym).
  assert (X0 : kcov k test train x a = 1).
  { rewrite <- (D0 a). unfold kcov. apply (proj1 PK). intros f Hf. rewrite (SR f ltac:(rewrite ?FC1, ?FC2; exact Hf)). reflexivity. }
  pose proof (SOL O ltac:(lia)) as E0. pose proof (SOL 1%nat ltac:(lia)) as E1.
  cbn [rsum] in *. unfold nbr_matrix, plus_diag in E0, E1. rewrite !NZ in E0, E1. cbn [with_self Nat.eqb] in *.
  rewrite !D0 in E0, E1. rewrite (SYM (q a O) a) in E1. rewrite !X0.
  transitivity ((0 + (1 + 0) * coef a 0%nat s + (kcov k train train a (q a 0%nat) + 0) * coef a 1%nat s) +
    (0 + (kcov k train train a (q a 0%nat) + 0) * coef a 0%nat s + (1 + 0) * coef a 1%nat s)); [ring|].
  rewrite E0, E1. reflexivity.
Qed.

Section D.
Variable ls : lsolver.
Variable knn : dict nnval -> list point -> point -> nat -> list (nat * R).
Variable hnsw : nnval -> list point -> point -> nat -> list (nat * R).
Variable spec : Type.
Variable make : spec -> result mmodel.
Variable fixed : mmodel -> result bool.
Variable batch : nn_wrapper -> result unit.
Variable opt : nn_wrapper -> option nat -> mmodel -> result mmodel.
Variable scale : nn_wrapper -> mmodel -> result mmodel.
Variable mscale : nn_wrapper -> list mmodel -> result (list mmodel).

Lemma do_fast_inv en test train targets n method kw k m w mean C :
  do_fast_posterior_mean ls knn hnsw spec make fixed batch opt scale mscale en test train targets n method kw k = Ok (m, w, mean, C) ->
  nn_init en (rows_of train) n method kw = Ok w /\
  decide_and_make_regressor spec mmodel make fixed (Ok tt) (batch w) (opt w) (scale w) (mscale w) (shape targets) k = Ok m /\
  work_fast_any ls knn hnsw m test train w targets = Ok (mean, C).
Proof.
  unfold do_fast_posterior_mean. destruct (nn_init en (rows_of train) n method kw) as [w0|e].
  - cbn [rmap bind]. intros H. apply bind_ok in H as (m0 & E & H). apply bind_ok in H as ([mean0 C0] & EP & H). cbn [fst snd] in H. injection H as <- <- <- <-.
    split; [reflexivity|]. split; [exact E|exact EP].
  - intros H. apply bind_ok in H as (m0 & _ & H). discriminate.
Qed.

Lemma fast_zero ms test train w targets mean C :
  work_fast_any ls knn hnsw (Multivariate ms) test train w targets = Ok (mean, C) ->
  (forall idx, at_ mean idx = 0) /\ (forall idx, at_ C idx = 0).
Proof.
  unfold work_fast_any, make_fast. destruct (shape train) as [|a [|b [|]]]; try discriminate.
  intros H. apply bind_ok in H as (cn & E & H). apply bind_ok in E as (rr & _ & E). apply bind_ok in E as (co & EC & E). injection E as <-.
  cbn [fst snd] in H. apply bind_ok in H as (r2 & _ & H). apply bind_ok in H as (cl & _ & H). apply bind_ok in H as (cs & _ & H).
  destruct (shape test) as [|t1 [|t2 [|]]]; try discriminate. apply bind_ok in H as (mn & EM & H). injection H as <- <-.
  unfold fast_multivariate_from in EC. destruct ms as [|m0 ms]; [discriminate|].
  apply bind_ok in EC as (pw & _ & EC). apply bind_ok in EC as (T & _ & EC). apply mm_fast_coeffs_zero in EC as [_ EC].
  cbn [made_fast_mean_from_indices] in EM. apply bind_ok in EM as (cw & _ & EM). apply bind_ok in EM as (c & _ & EM).
  split; [apply (mm_fast_mean_zero _ _ _ _ EM)|exact EC].
Qed.
End D.
