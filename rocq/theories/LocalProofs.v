(** Proofs about locality and noise. *)
From Coq Require Import Lia Lra.
From Verif Require Import Base BaseFacts NdModel NdFacts RSum HyperModel NamedModel NamedSpec LinAlgModel LinAlgSpec LinAlgFacts
  GPModel NoiseModel MuyGPSModel GPSpec GPTheorems WellPosedProofs TensorModel TensorSpec TensorProofs KernelModel KernelSpec
  NeighborsModel NeighborsSpec NeighborsProofs FlowModel FlowSpec FlowProofs PointwiseSpec LibSpec LibProofs
  MultiModel DriverModel WorkModel WorkSpec WorkProofs WorkLemmas BestSpec BestProofs SimProofs LocalSpec.
Local Open Scope R_scope.

(** ** Uniqueness of strictly nearest rows *)
Lemma nearest_strict test train N x n q p :
  nearest_rows test train N x n q -> nearest_rows test train N x n p ->
  (forall i j, (i < j)%nat -> (j < n)%nat -> row_dist test train x (p i) < row_dist test train x (p j)) ->
  (forall a, (a < N)%nat -> (forall j, (j < n)%nat -> p j <> a) -> forall j, (j < n)%nat -> row_dist test train x (p j) < row_dist test train x a) ->
  forall j, (j < n)%nat -> q j = p j.
Proof.
  intros A B ST OUT.
  assert (H : forall q q', nearest_rows test train N x n q -> nearest_rows test train N x n q' ->
     forall j, (j < n)%nat -> (forall i, (i < j)%nat -> q i = q' i) ->
     row_dist test train x (q' j) <= row_dist test train x (q j)).
  { clear. intros q q' (B & I & S & O) (B' & I' & S' & O') j Hj E.
    destruct (Rle_lt_dec (row_dist test train x (q' j)) (row_dist test train x (q j))) as [L|L]; [exact L|].
    apply O'; auto. intros i Hi Ei.
    destruct (Nat.lt_ge_cases i j) as [C|C].
    - rewrite <- (E i C) in Ei. apply I in Ei; auto; lia.
    - specialize (S' j i C Hi). rewrite Ei in S'. lra. }
  intros j. induction j as [j IH] using lt_wf_ind. intros Hj.
  assert (E : forall i, (i < j)%nat -> q i = p i) by (intros i Hi; apply IH; lia).
  assert (E' : forall i, (i < j)%nat -> p i = q i) by (intros i Hi; symmetry; apply E; auto).
  pose proof (H q p A B j Hj E). pose proof (H p q B A j Hj E').
  destruct (list_in_dec n p (q j)) as [(i & Hi & Ei)|NI].
  - destruct (Nat.lt_trichotomy i j) as [C|[->|C]]; [|auto|].
    + exfalso. rewrite (E' i C) in Ei. apply (proj1 (proj2 A)) in Ei; auto; lia.
    + exfalso. pose proof (ST j i C Hi) as X. rewrite Ei in X. lra.
  - exfalso. pose proof (OUT (q j) (proj1 A j Hj) NI j Hj). lra.
Qed.

Section Local.
Variables (gamma : R -> R) (kv : R -> R -> R).
Variable ls : lsolver.
Hypothesis EX : exact_solver ls.
Variable knn : dict nnval -> list point -> point -> nat -> list (nat * R).
Variable hnsw : nnval -> list point -> point -> nat -> list (nat * R).
Variable dist : dict nnval -> point -> point -> R.
Hypothesis Hsk : sklearn_ok knn dist.

Lemma local_any en method kw w en' method' kw' w' g K cur test train targets train' targets' N N' M n ex :
  lower method = "exact"%string -> euclidean_kw kw -> nn_init en (rows_of train) n method kw = Ok w -> (0 < n <= N /\ 0 < M)%nat ->
  lower method' = "exact"%string -> euclidean_kw kw' -> nn_init en' (rows_of train') n method' kw' = Ok w' -> (0 < n <= N' /\ 0 < M)%nat ->
  dataset test M -> dataset train N -> ndim test = ndim train -> feature_count test = feature_count train ->
  dataset train' N' -> ndim train' = ndim train -> feature_count train' = feature_count train ->
  lk_ok K (feature_count train) cur [] -> shape targets = N :: ex -> shape targets' = N' :: ex -> no_coincidence ex [n] ->
  shape (gp_Kout g) = [] -> at_ (gp_Kout g) [] = 1 -> 0 <= gp_var_scale g ->
  noise_fits (gp_noise g) M n -> sound_noise (gp_noise g) train N M n -> sound_noise (gp_noise g) train' N' M n ->
  exists mean var mean' var',
    regress_any ls knn hnsw (Univariate (lib_model gamma kv g K cur)) test train w targets = Ok (mean, var) /\
    regress_any ls knn hnsw (Univariate (lib_model gamma kv g K cur)) test train' w' targets' = Ok (mean', var') /\
    forall x, (x < M)%nat -> no_ties test train N x -> same_nearby test train targets N train' targets' N' ex x n ->
      at_ var' [x] = at_ var [x] /\ forall e, inb ex e -> at_ mean' (x :: e) = at_ mean (x :: e).
Proof.
  intros Hm He Hi Hn Hm' He' Hi' Hn' D1 D2 ND FC D2' ND' FT OK HT HT' NC SK K1 SC NF SN SN'.
  destruct (regress_any_nbr gamma kv ls EX knn hnsw dist Hsk en method kw w g K cur [] test train targets N M n ex)
    as (mean & var & E & _ & _ & NS & V); auto.
  destruct (regress_any_nbr gamma kv ls EX knn hnsw dist Hsk en' method' kw' w' g K cur [] test train' targets' N' M n ex)
    as (mean' & var' & E' & _ & _ & _ & V'); auto; try congruence.
  rewrite FT in V'.
  exists mean, var, mean', var'. split; [exact E|]. split; [exact E'|]. intros x Hx NT (p & p' & PN & PP & PI & PO).
  set (k := lk_cov gamma kv K (feature_count train) cur []) in *.
  destruct (V x Hx) as (NRx & Mx & (wv & W & Vx) & _). destruct (V' x Hx) as (NRy & My & (wv' & W' & Vy) & _).
  assert (DD : forall j, (j < n)%nat -> row_dist test train' x (p' j) = row_dist test train x (p j)).
  { intros j Hj. apply row_dist_same_r; auto. apply (PP j Hj). }
  assert (Q1 : forall j, (j < n)%nat -> nbr knn hnsw w test x j = p j) by (apply (nearest_unique test train N x n _ _ NT NRx PN)).
  assert (STR : forall i j, (i < j)%nat -> (j < n)%nat -> row_dist test train x (p i) < row_dist test train x (p j)).
  { intros i j Hij Hj. destruct PN as (PB & PJ & PS & _). destruct (PS i j) as [L|L]; [lia|exact Hj|exact L|].
    exfalso. apply NT in L; [|apply PB; lia|apply PB; auto]. apply PJ in L; lia. }
  assert (PN' : nearest_rows test train' N' x n p').
  { split; [intros j Hj; apply (PP j Hj)|]. split; [exact PI|]. split.
    - intros i j Hij Hj. rewrite !DD by lia. destruct PN as (_ & _ & PS & _). apply PS; auto.
    - intros a Ha NA j Hj. rewrite DD by auto. left. apply PO; auto. }
  assert (Q2 : forall j, (j < n)%nat -> nbr knn hnsw w' test x j = p' j).
  { apply (nearest_strict test train' N' x n _ _ NRy PN').
    - intros i j Hij Hj. rewrite !DD by lia. apply STR; auto.
    - intros a Ha NA j Hj. rewrite DD by auto. apply PO; auto. }
  assert (PK : pointwise_kernel (feature_count train) (lk_call gamma kv K cur []) k) by (apply lk_pointwise; auto).
  assert (FE : forall j f, (j < n)%nat -> (f < feature_count train)%nat ->
     feature train (nbr knn hnsw w test x j) f = feature train' (nbr knn hnsw w' test x j) f).
  { intros j f Hj Hf. rewrite Q1, Q2 by auto. symmetry. apply (PP j Hj). auto. }
  assert (KE : forall j, (j < n)%nat -> kcov k test train x (nbr knn hnsw w test x j) = kcov k test train' x (nbr knn hnsw w' test x j)).
  { intros j Hj. unfold kcov. apply (proj1 PK). intros f Hf. rewrite FE by auto. reflexivity. }
  assert (AE : forall i j, (i < n)%nat -> (j < n)%nat -> nbr_matrix k (gp_noise g) train (nbr knn hnsw w test) x i j =
                            nbr_matrix k (gp_noise g) train' (nbr knn hnsw w' test) x i j).
  { intros i j Hi1 Hj1. unfold nbr_matrix, plus_diag. f_equal. unfold kcov. apply (proj1 PK). intros f Hf. rewrite !FE by auto. reflexivity. }
  split.
  - rewrite Vx, Vy. f_equal. f_equal. symmetry.
    refine (kriging_det n _ _ _ _ _ _ _ _ (NS x Hx) AE KE KE _ _); [exists wv|exists wv']; split; auto.
  - intros e Hie. symmetry. refine (kriging_det n _ _ _ _ _ _ _ _ (NS x Hx) AE KE _ (Mx e Hie) (My e Hie)).
    intros j Hj. cbn beta. rewrite Q1, Q2 by auto. symmetry. apply (PP j Hj). auto.
Qed.

(** ** All training rows as neighbours *)
Lemma kriging_perm n A k y p v : perm_on n p -> nonsingular n (fun i j => A (p i) (p j)) ->
  kriging n (fun i j => A (p i) (p j)) (fun i => k (p i)) (fun i => y (p i)) v -> nonsingular n A -> kriging n A k y v.
Proof.
  intros PM NS (w & W & ->) NA.
  assert (INV : exists r, perm_on n r /\ (forall i, (i < n)%nat -> p (r i) = i) /\ forall i, (i < n)%nat -> r (p i) = i).
  { exists (fun i => match find (fun j => (p j =? i)%nat) (seq 0 n) with Some j => j | None => O end).
    assert (F : forall i, (i < n)%nat -> exists j, find (fun j => (p j =? i)%nat) (seq 0 n) = Some j /\ (j < n)%nat /\ p j = i).
    { intros i Hi. destruct (find (fun j => (p j =? i)%nat) (seq 0 n)) as [j|] eqn:Ef.
      - apply find_some in Ef as [I Eq]. apply in_seq in I. apply Nat.eqb_eq in Eq. exists j. split; [reflexivity|]. split; [lia|exact Eq].
      - exfalso. destruct (perm_on_surj n p PM i Hi) as (j & Hj & Ej).
        assert (IN : In j (seq 0 n)) by (apply in_seq; lia). pose proof (find_none _ _ Ef j IN) as X. cbn beta in X.
        rewrite Ej, Nat.eqb_refl in X. discriminate X. }
    split; [split|split].
    - intros i Hi. destruct (F i Hi) as (j & -> & Hj & _). exact Hj.
    - intros i j Hi Hj. destruct (F i Hi) as (a & -> & Ha & Ea). destruct (F j Hj) as (b & -> & Hb & Eb). intros ->. congruence.
    - intros i Hi. destruct (F i Hi) as (j & -> & _ & E). exact E.
    - intros i Hi. destruct (F (p i) (proj1 PM i Hi)) as (j & -> & Hj & E). apply PM; auto. }
  destruct INV as (r & PR & PR1 & PR2).
  exists (fun i => w (r i)). split.
  - intros i Hi. pose proof (solves_perm n _ w _ r PR W i Hi) as X. cbn beta in X. rewrite PR1 in X by auto.
    rewrite <- X. apply rsum_ext. intros j Hj. rewrite PR1 by auto. reflexivity.
  - unfold dot. rewrite <- (rsum_perm n p (fun i => w (r i) * y i) PM). apply rsum_ext. intros i Hi. rewrite PR2 by auto. reflexivity.
Qed.

Lemma all_any en method kw w g K cur test train targets N M ex :
  lower method = "exact"%string -> euclidean_kw kw -> nn_init en (rows_of train) N method kw = Ok w -> (0 < N /\ 0 < M)%nat ->
  dataset test M -> dataset train N -> ndim test = ndim train -> feature_count test = feature_count train ->
  lk_ok K (feature_count train) cur [] -> shape targets = N :: ex -> no_coincidence ex [N] ->
  shape (gp_Kout g) = [] -> at_ (gp_Kout g) [] = 1 -> 0 <= gp_var_scale g ->
  uniform_noise (gp_noise g) -> sound_noise (gp_noise g) train N M N ->
  let k := lk_cov gamma kv K (feature_count train) cur [] in
  let A := full_matrix k (gp_noise g) train in
  exists mean var,
    regress_any ls knn hnsw (Univariate (lib_model gamma kv g K cur)) test train w targets = Ok (mean, var) /\
    forall x, (x < M)%nat ->
      nonsingular N A /\
      (forall e, inb ex e -> kriging N A (fun a => kcov k test train x a) (fun a => at_ targets (a :: e)) (at_ mean (x :: e))) /\
      exists t, kriging N A (fun a => kcov k test train x a) (fun a => kcov k test train x a) t /\ at_ var [x] = gp_var_scale g * (1 - t).
Proof.
  intros Hm He Hi NM D1 D2 ND FC OK HT NC SK K1 SC UN SN k A.
  destruct (regress_any_nbr gamma kv ls EX knn hnsw dist Hsk en method kw w g K cur [] test train targets N M N ex)
    as (mean & var & E & _ & _ & NS & V); auto; [lia|apply uniform_fits; auto|].
  exists mean, var. split; [exact E|]. intros x Hx. destruct (V x Hx) as (NRx & Mx & (wv & W & Vx) & _). fold k in Mx, W, Vx, NS.
  set (q := nbr knn hnsw w test) in *.
  assert (PM : perm_on N (q x)) by (split; [apply NRx|apply NRx]).
  assert (UNI : forall i, noise_at (gp_noise g) None x i = noise_at (gp_noise g) None 0 0).
  { intros i. destruct UN as [->|[v ->]]; reflexivity. }
  assert (AE : forall i j, (i < N)%nat -> (j < N)%nat -> nbr_matrix k (gp_noise g) train q x i j = A (q x i) (q x j)).
  { intros i j Hi0 Hj0. unfold nbr_matrix, plus_diag, A, full_matrix. rewrite UNI.
    destruct (Nat.eqb_spec i j) as [->|NE]; [rewrite Nat.eqb_refl; reflexivity|].
    destruct (Nat.eqb_spec (q x i) (q x j)) as [EQ|]; [|reflexivity]. apply PM in EQ; auto. contradiction. }
  assert (WP : well_posed (gp_noise g) train M N (fun _ a => a)).
  { intros y Hy. destruct SN as [P|[P D]]; [left; intros i Hi0; apply P; auto|right; split; [intros i Hi0; apply P; auto|exact D]]. }
  assert (NSA : nonsingular N A).
  { apply (pd_nonsingular N). intros v NZ. pose proof (nbr_pd gamma kv K cur [] (gp_noise g) train M N (fun _ a => a) x OK WP Hx v NZ) as P.
    replace (quad N A v) with (quad N (nbr_matrix (lk_cov gamma kv K (feature_count train) cur []) (gp_noise g) train (fun _ a => a) x) v); [exact P|].
    unfold quad. apply rsum2_ext. intros i j Hi0 Hj0. unfold nbr_matrix, plus_diag, A, full_matrix. rewrite UNI. reflexivity. }
  assert (NS2 : nonsingular N (fun i j => A (q x i) (q x j))).
  { intros v Hv. apply (NS x Hx). intros i Hi0. rewrite <- (Hv i Hi0). apply rsum_ext. intros j Hj0. rewrite AE by auto. reflexivity. }
  assert (W2 : solves N (fun i j => A (q x i) (q x j)) wv (fun j => kcov k test train x (q x j))).
  { intros i Hi0. rewrite <- (W i Hi0). apply rsum_ext. intros j Hj0. rewrite AE by auto. reflexivity. }
  split; [exact NSA|]. split.
  - intros e Hie. destruct (Mx e Hie) as (u & U & Eu).
    apply (kriging_perm N A (fun a => kcov k test train x a) (fun a => at_ targets (a :: e)) (q x) _ PM NS2); [|exact NSA].
    exists u. split; [|exact Eu]. intros i Hi0. rewrite <- (U i Hi0). apply rsum_ext. intros j Hj0. rewrite AE by auto. reflexivity.
  - exists (dot N wv (fun j => kcov k test train x (q x j))). split; [|exact Vx].
    apply (kriging_perm N A (fun a => kcov k test train x a) (fun a => kcov k test train x a) (q x) _ PM NS2); [|exact NSA].
    exists wv. split; [exact W2|reflexivity].
Qed.

(** ** Noise *)
Lemma noise_monotone en method kw w g g' K cur test train targets N M n ex :
  lower method = "exact"%string -> euclidean_kw kw -> nn_init en (rows_of train) n method kw = Ok w -> (0 < n <= N /\ 0 < M)%nat ->
  dataset test M -> dataset train N -> ndim test = ndim train -> feature_count test = feature_count train ->
  lk_ok K (feature_count train) cur [] -> shape targets = N :: ex -> no_coincidence ex [n] ->
  shape (gp_Kout g) = [] -> at_ (gp_Kout g) [] = 1 -> shape (gp_Kout g') = [] -> at_ (gp_Kout g') [] = 1 ->
  0 <= gp_var_scale g -> gp_var_scale g' = gp_var_scale g ->
  noise_fits (gp_noise g) M n -> sound_noise (gp_noise g) train N M n -> noise_fits (gp_noise g') M n ->
  (forall x i, (x < M)%nat -> (i < n)%nat -> noise_at (gp_noise g) None x i <= noise_at (gp_noise g') None x i) ->
  exists mean var mean' var',
    regress_any ls knn hnsw (Univariate (lib_model gamma kv g K cur)) test train w targets = Ok (mean, var) /\
    regress_any ls knn hnsw (Univariate (lib_model gamma kv g' K cur)) test train w targets = Ok (mean', var') /\
    forall x, (x < M)%nat -> at_ var [x] <= at_ var' [x].
Proof.
  intros Hm He Hi Hn D1 D2 ND FC OK HT NC SK K1 SK' K1' SC GS NF SN NF' LE.
  assert (SN' : sound_noise (gp_noise g') train N M n).
  { destruct SN as [P|[P D]]; [left|right; split; [|exact D]]; intros x i Hx Hi0; specialize (P x i Hx Hi0); specialize (LE x i Hx Hi0); lra. }
  destruct (regress_any_nbr gamma kv ls EX knn hnsw dist Hsk en method kw w g K cur [] test train targets N M n ex)
    as (mean & var & E & _ & _ & _ & V); auto.
  destruct (regress_any_nbr gamma kv ls EX knn hnsw dist Hsk en method kw w g' K cur [] test train targets N M n ex)
    as (mean' & var' & E' & _ & _ & _ & V'); auto; [lra|].
  exists mean, var, mean', var'. split; [exact E|]. split; [exact E'|]. intros x Hx.
  destruct (V x Hx) as (A & _ & (u & SO & ->) & _). destruct (V' x Hx) as (A' & _ & (u' & SO' & ->) & _).
  set (q := nbr knn hnsw w test) in *. set (k := lk_cov gamma kv K (feature_count train) cur []) in *.
  assert (WP : well_posed (gp_noise g) train M n q) by (apply (sound_well_posed _ test train N); auto; intros z Hz; apply V; auto).
  assert (WP' : well_posed (gp_noise g') train M n q) by (apply (sound_well_posed _ test train N); auto; intros z Hz; apply V; auto).
  destruct (error_optimal gamma kv K cur [] (gp_noise g) test train M x n q u OK WP Hx SO) as [E1 O1].
  destruct (error_optimal gamma kv K cur [] (gp_noise g') test train M x n q u' OK WP' Hx SO') as [E2 _].
  fold k in E1, O1, E2. rewrite GS. apply Rmult_le_compat_l; [exact SC|].
  rewrite <- E1, <- E2. apply Rle_trans with (error_variance k (gp_noise g) test train x n (q x) u'); [apply O1|].
  unfold error_variance. apply Rplus_le_compat_l. apply rsum_le. intros i Hi0. apply rsum_le. intros j Hj0. unfold obs_cov.
  destruct (Nat.eqb_spec i j) as [<-|]; [|lra]. pose proof (LE x i Hx Hi0). pose proof (pow2_ge_0 (u' i)). cbn [pow] in *. nra.
Qed.

Lemma error_positive K cur m test train M x n q u : lk_ok K (feature_count train) cur [] -> (x < M)%nat ->
  let k := lk_cov gamma kv K (feature_count train) cur [] in
  (forall i, (i < n)%nat -> 0 < noise_at m None x i) \/
  ((forall i, (i < n)%nat -> 0 <= noise_at m None x i) /\ distinct_rows train n (q x) /\
   forall i, (i < n)%nat -> exists f, (f < feature_count train)%nat /\ feature test x f <> feature train (q x i) f) ->
  0 < error_variance k m test train x n (q x) u.
Proof.
  intros OK Hx k NZ.
  set (pts := fun i f => if (i <? n)%nat then feature train (q x i) f else feature test x f).
  set (v := fun i => if (i <? n)%nat then - u i else 1).
  set (J := fun i j => k (fun f => pts i f - pts j f)).
  assert (EQ : error_variance k m test train x n (q x) u = quad (S n) J v + rsum n (fun i => u i * u i * noise_at m None x i)).
  { unfold quad. cbn [rsum].
    assert (Pn : forall i, (i < n)%nat -> (i <? n)%nat = true) by (intros; apply Nat.ltb_lt; auto).
    assert (Pnn : (n <? n)%nat = false) by (apply Nat.ltb_ge; lia).
    assert (VN : v n = 1) by (unfold v; rewrite Pnn; reflexivity).
    assert (VI : forall i, (i < n)%nat -> v i = - u i) by (intros i Hi; unfold v; rewrite Pn by auto; reflexivity).
    assert (JI : forall i j, (i < n)%nat -> (j < n)%nat -> J i j = kcov k train train (q x i) (q x j)).
    { intros i j Hi Hj. unfold J, kcov, pts. rewrite !Pn by auto. reflexivity. }
    assert (JN : forall j, (j < n)%nat -> J n j = kcov k test train x (q x j)).
    { intros j Hj. unfold J, kcov, pts. rewrite Pnn, Pn by auto. reflexivity. }
    assert (JS : forall i j, J i j = J j i).
    { intros i j. unfold J, k. apply cov_eq; [destruct K; reflexivity||exact Logic.I|].
      unfold scaled_sqdist. apply rsum_ext. intros f _. unfold Rdiv. ring. }
    assert (JNN : J n n = kcov k test test x x).
    { unfold J, kcov, pts. rewrite Pnn. reflexivity. }
    rewrite (rsum_ext n (fun i => rsum n (fun j => v i * J i j * v j) + v i * J i n * v n)
       (fun i => rsum n (fun j => u i * u j * kcov k train train (q x i) (q x j)) + (-1) * (u i * kcov k test train x (q x i)))).
    2:{ intros i Hi. rewrite VN, (JS i n), JN, VI by auto. f_equal; [|ring]. apply rsum_ext. intros j Hj. rewrite JI, VI by auto. ring. }
    rewrite (rsum_ext n (fun j => v n * J n j * v j) (fun j => (-1) * (u j * kcov k test train x (q x j)))).
    2:{ intros j Hj. rewrite VN, JN, VI by auto. ring. }
    rewrite rsum_plus, !rsum_scal, VN, JNN. unfold error_variance.
    rewrite (rsum_ext n (fun i => rsum n (fun j => u i * u j * obs_cov k m train x (q x) i j))
      (fun i => rsum n (fun j => u i * u j * kcov k train train (q x i) (q x j)) + u i * u i * noise_at m None x i)).
    2:{ intros i Hi. rewrite (rsum_ext n _ (fun j => u i * u j * kcov k train train (q x i) (q x j) + delta i j * (u i * u j * noise_at m None x i))).
        - rewrite rsum_plus. f_equal. apply (rsum_delta_l n i (fun j => u i * u j * noise_at m None x i)). exact Hi.
        - intros j Hj. unfold obs_cov, delta. destruct (Nat.eqb_spec i j); ring. }
    rewrite rsum_plus. ring. }
  rewrite EQ. destruct NZ as [P|(P & D & NEW)].
  - assert (Q0 : 0 <= quad (S n) J v) by (apply (lk_cov_psd gamma kv K (feature_count train) cur [] pts (S n) OK)).
    destruct (classic_zero n u) as [Z|(i & Hi & NZ)].
    + assert (Q1 : quad (S n) J v = 1).
      { assert (E0 : quad (S n) J v = error_variance k m test train x n (q x) u - rsum n (fun i => u i * u i * noise_at m None x i)) by lra.
        rewrite E0. rewrite (rsum_ext n (fun i => u i * u i * noise_at m None x i) (fun _ => 0)) by (intros j Hj; rewrite Z by auto; ring).
        rewrite rsum_0. unfold error_variance.
        rewrite (rsum_ext n (fun j => u j * kcov k test train x (q x j)) (fun _ => 0)) by (intros j Hj; rewrite Z by auto; ring).
        rewrite rsum_0. rewrite (rsum_ext n _ (fun _ => 0)).
        2:{ intros j Hj. rewrite (rsum_ext n _ (fun _ => 0)); [apply rsum_0|]. intros l Hl. rewrite (Z j Hj). ring. }
        rewrite rsum_0. unfold k. rewrite self_cov by auto. ring. }
      rewrite Q1. assert (0 <= rsum n (fun i => u i * u i * noise_at m None x i)); [|lra].
      apply rsum_nonneg. intros j Hj. pose proof (P j Hj). pose proof (pow2_ge_0 (u j)). cbn [pow] in *. nra.
    + assert (0 < rsum n (fun i => u i * u i * noise_at m None x i)); [|lra].
      assert (T : forall j, (j < n)%nat -> 0 <= u j * u j * noise_at m None x j).
      { intros j Hj. pose proof (P j Hj). pose proof (pow2_ge_0 (u j)). cbn [pow] in *. nra. }
      destruct (rsum_nonneg n _ T) as [L|L]; [exact L|]. exfalso. symmetry in L.
      pose proof (rsum_zero_inv n _ T L i Hi) as X. cbn beta in X. pose proof (P i Hi).
      assert (0 < u i * u i * noise_at m None x i) by (apply Rmult_lt_0_compat; [apply Rsqr_pos_lt; auto|auto]). lra.
  - assert (0 < quad (S n) J v).
    { apply (lk_cov_pd gamma kv K (feature_count train) cur [] pts (S n) OK).
      - intros i j Hi Hj Hij. unfold pts.
        destruct (Nat.ltb_spec i n) as [Hi1|Hi1], (Nat.ltb_spec j n) as [Hj1|Hj1].
        + apply D; auto.
        + destruct (NEW i Hi1) as (f & Hf & NE). exists f. split; [exact Hf|]. intros C. apply NE. symmetry. exact C.
        + destruct (NEW j Hj1) as (f & Hf & NE). exists f. split; [exact Hf|]. exact NE.
        + lia.
      - exists n. split; [lia|]. unfold v. destruct (Nat.ltb_spec n n) as [C|C]; [exfalso; revert C; apply Nat.lt_irrefl|lra]. }
    assert (0 <= rsum n (fun i => u i * u i * noise_at m None x i)); [|lra].
    apply rsum_nonneg. intros j Hj. pose proof (P j Hj). pose proof (pow2_ge_0 (u j)). cbn [pow] in *. nra.
Qed.
Lemma variance_positive en method kw w g K cur test train targets N M n ex :
  lower method = "exact"%string -> euclidean_kw kw -> nn_init en (rows_of train) n method kw = Ok w -> (0 < n <= N /\ 0 < M)%nat ->
  dataset test M -> dataset train N -> ndim test = ndim train -> feature_count test = feature_count train ->
  lk_ok K (feature_count train) cur [] -> shape targets = N :: ex -> no_coincidence ex [n] ->
  shape (gp_Kout g) = [] -> at_ (gp_Kout g) [] = 1 -> 0 < gp_var_scale g ->
  noise_fits (gp_noise g) M n -> sound_noise (gp_noise g) train N M n ->
  exists mean var,
    regress_any ls knn hnsw (Univariate (lib_model gamma kv g K cur)) test train w targets = Ok (mean, var) /\
    forall x, (x < M)%nat ->
      (forall i, (i < n)%nat -> 0 < noise_at (gp_noise g) None x i) \/ distinct_rows train N (fun i => i) /\ new_row test train x N ->
      0 < at_ var [x].
Proof.
  intros Hm He Hi Hn D1 D2 ND FC OK HT NC SK K1 SC NF SN.
  destruct (regress_any_nbr gamma kv ls EX knn hnsw dist Hsk en method kw w g K cur [] test train targets N M n ex)
    as (mean & var & E & _ & _ & _ & V); auto; [lra|].
  exists mean, var. split; [exact E|]. intros x Hx NZ. destruct (V x Hx) as (A & _ & (u & SO & ->) & _).
  set (q := nbr knn hnsw w test) in *. set (k := lk_cov gamma kv K (feature_count train) cur []) in *.
  assert (WP : well_posed (gp_noise g) train M n q) by (apply (sound_well_posed _ test train N); auto; intros z Hz; apply V; auto).
  destruct (error_optimal gamma kv K cur [] (gp_noise g) test train M x n q u OK WP Hx SO) as [E1 _]. fold k in E1.
  apply Rmult_lt_0_compat; [exact SC|]. rewrite <- E1.
  apply (error_positive K cur (gp_noise g) test train M x n q u OK Hx).
  destruct NZ as [P|[D NEW]]; [left; exact P|].
  assert (NN : forall i, (i < n)%nat -> 0 <= noise_at (gp_noise g) None x i).
  { intros i Hi0. destruct SN as [P|[P _]]; specialize (P x i Hx Hi0); lra. }
  right. split; [exact NN|]. destruct A as (B & J & _). split.
  - intros i j Hi0 Hj0 Hij. apply D; auto.
  - intros i Hi0. apply NEW. apply B. exact Hi0.
Qed.

Lemma variance_zero en method kw w g K cur test train targets N M n ex v :
  lower method = "exact"%string -> euclidean_kw kw -> nn_init en (rows_of train) n method kw = Ok w -> (0 < n <= N /\ 0 < M)%nat ->
  dataset test M -> dataset train N -> ndim test = ndim train -> feature_count test = feature_count train ->
  lk_ok K (feature_count train) cur [] -> shape targets = N :: ex -> no_coincidence ex [n] ->
  shape (gp_Kout g) = [] -> at_ (gp_Kout g) [] = 1 -> 0 < gp_var_scale g ->
  gp_noise g = HomoscedasticNoise v -> 0 <= v -> distinct_rows train N (fun i => i) ->
  exists mean var,
    regress_any ls knn hnsw (Univariate (lib_model gamma kv g K cur)) test train w targets = Ok (mean, var) /\
    forall x, (x < M)%nat -> (at_ var [x] = 0 <-> v = 0 /\ exists a, (a < N)%nat /\ same_row test train x a).
Proof.
  intros Hm He Hi Hn D1 D2 ND FC OK HT NC SK K1 SC GN Hv DR.
  destruct (variance_positive en method kw w g K cur test train targets N M n ex) as (mean & var & E & P); auto; [| |].
  { rewrite GN. exact Logic.I. }
  { right. split; [|exact DR]. intros x i _ _. rewrite GN. exact Hv. }
  exists mean, var. split; [exact E|]. intros x Hx. split.
  - intros Z. destruct Hv as [Hv|Hv].
    + exfalso. assert (0 < at_ var [x]); [|lra]. apply P; auto. left. intros i Hi0. rewrite GN. exact Hv.
    + split; [auto|].
      assert (DEC : (exists a, (a < N)%nat /\ same_row test train x a) \/ new_row test train x N).
      { clear - N. induction N as [|m IH]; [right; intros a Ha; lia|]. destruct IH as [(a & Ha & SA)|NR]; [left; exists a; split; [lia|exact SA]|].
        destruct (differs_dec (feature_count train) (feature test x) (feature train m)) as [S0|D0]; [left; exists m; split; [lia|exact S0]|right].
        intros a Ha. destruct (Nat.eq_dec a m) as [->|]; [exact D0|apply NR; lia]. }
      destruct DEC as [S0|NR]; [exact S0|]. exfalso. assert (0 < at_ var [x]); [|lra]. apply P; auto.
  - intros [-> (a & Ha & SA)].
    destruct (regress_any_interpolates gamma kv ls EX knn hnsw dist Hsk en method kw w g K cur [] test train targets N M n ex)
      as (mean' & var' & E' & IP); auto; [lra|].
    unfold lib_model in E. rewrite E in E'. injection E' as <- <-. apply (IP x a Hx Ha SA).
Qed.
End Local.
