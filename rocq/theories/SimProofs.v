(** Proofs about changes of coordinates of the features. *)
From Coq Require Import Lia Lra.
From Verif Require Import Base BaseFacts NdModel NdFacts RSum HyperModel NamedModel NamedSpec LinAlgModel LinAlgSpec LinAlgFacts
  GPModel NoiseModel MuyGPSModel GPSpec TensorModel TensorSpec TensorProofs KernelModel KernelSpec
  NeighborsModel NeighborsSpec NeighborsProofs FlowModel FlowSpec FlowProofs PointwiseSpec LibSpec LibProofs
  MultiModel DriverModel WorkModel WorkSpec WorkProofs WorkLemmas SimSpec.
Local Open Scope R_scope.

Lemma nearest_scaled test train test' train' N x n q c : 0 < c ->
  (forall a, (a < N)%nat -> row_dist test' train' x a = c * row_dist test train x a) ->
  nearest_rows test' train' N x n q -> nearest_rows test train N x n q.
Proof.
  intros C H (B & I & O & X). split; [exact B|]. split; [exact I|].
  assert (LE : forall a b, (a < N)%nat -> (b < N)%nat -> row_dist test' train' x a <= row_dist test' train' x b ->
            row_dist test train x a <= row_dist test train x b).
  { intros a b Ha Hb L. rewrite !H in L by auto. apply (Rmult_le_reg_l c); auto. }
  split.
  - intros i j Hij Hj. apply LE; [apply B; lia|apply B; lia|]. apply O; auto.
  - intros a Ha NI j Hj. apply LE; [apply B; auto|auto|]. apply X; auto.
Qed.

Lemma differs_dec n (a b : nat -> R) : (forall f, (f < n)%nat -> a f = b f) \/ exists f, (f < n)%nat /\ a f <> b f.
Proof.
  induction n as [|n [IH|(i & Hi & N)]]; [left; intros; lia| |right; exists i; split; [lia|exact N]].
  destruct (Req_dec (a n) (b n)) as [Z|N]; [left|right; exists n; split; [lia|exact N]].
  intros i Hi. destruct (Nat.eq_dec i n) as [->|]; [exact Z|apply IH; lia].
Qed.

Section Same.
Variables (gamma : R -> R) (kv : R -> R -> R).
Variable ls : lsolver.
Hypothesis EX : exact_solver ls.
Local Notation cov K F cur := (lk_cov gamma kv K F cur []).

(** Two models with the same covariances on the rows concerned. *)
Definition same_cov (K K' : libkernel) (cur cur' : nat -> R) (test train test' train' : nd R) (M N : nat) : Prop :=
  (forall x a, (x < M)%nat -> (a < N)%nat ->
     kcov (cov K' (feature_count train') cur') test' train' x a = kcov (cov K (feature_count train) cur) test train x a) /\
  (forall a b, (a < N)%nat -> (b < N)%nat ->
     kcov (cov K' (feature_count train') cur') train' train' a b = kcov (cov K (feature_count train) cur) train train a b).

Lemma same_predictions g K K' cur cur' test train test' train' targets M N n q q' x mean mean' var var' ex :
  same_cov K K' cur cur' test train test' train' M N -> (x < M)%nat ->
  (forall j, (j < n)%nat -> (q x j < N)%nat) -> (forall j, (j < n)%nat -> q' x j = q x j) ->
  nonsingular n (nbr_matrix (cov K (feature_count train) cur) (gp_noise g) train q x) ->
  (forall e, inb ex e -> kriging n (nbr_matrix (cov K (feature_count train) cur) (gp_noise g) train q x)
     (fun j => kcov (cov K (feature_count train) cur) test train x (q x j)) (fun j => at_ targets (q x j :: e)) (at_ mean (x :: e))) ->
  (exists wv, solves n (nbr_matrix (cov K (feature_count train) cur) (gp_noise g) train q x) wv
          (fun j => kcov (cov K (feature_count train) cur) test train x (q x j)) /\
        at_ var [x] = gp_var_scale g * (1 - dot n wv (fun j => kcov (cov K (feature_count train) cur) test train x (q x j)))) ->
  (forall e, inb ex e -> kriging n (nbr_matrix (cov K' (feature_count train') cur') (gp_noise g) train' q' x)
     (fun j => kcov (cov K' (feature_count train') cur') test' train' x (q' x j)) (fun j => at_ targets (q' x j :: e)) (at_ mean' (x :: e))) ->
  (exists wv, solves n (nbr_matrix (cov K' (feature_count train') cur') (gp_noise g) train' q' x) wv
          (fun j => kcov (cov K' (feature_count train') cur') test' train' x (q' x j)) /\
        at_ var' [x] = gp_var_scale g * (1 - dot n wv (fun j => kcov (cov K' (feature_count train') cur') test' train' x (q' x j)))) ->
  at_ var' [x] = at_ var [x] /\ forall e, inb ex e -> at_ mean' (x :: e) = at_ mean (x :: e).
Proof.
  intros [S1 S2] Hx QB QE NS Mx (wv & W & Vx) My (wv' & W' & Vy).
  assert (KE : forall j, (j < n)%nat -> kcov (cov K (feature_count train) cur) test train x (q x j) =
     kcov (cov K' (feature_count train') cur') test' train' x (q' x j)).
  { intros j Hj. rewrite QE by auto. symmetry. apply S1; auto. }
  assert (AE : forall i j, (i < n)%nat -> (j < n)%nat -> nbr_matrix (cov K (feature_count train) cur) (gp_noise g) train q x i j =
     nbr_matrix (cov K' (feature_count train') cur') (gp_noise g) train' q' x i j).
  { intros i j Hi Hj. unfold nbr_matrix, plus_diag. f_equal. rewrite !QE by auto. symmetry. apply S2; auto. }
  split.
  - rewrite Vx, Vy. f_equal. f_equal. symmetry.
    refine (kriging_det n _ _ _ _ _ _ _ _ NS AE KE KE _ _); [exists wv|exists wv']; split; auto.
  - intros e Hie. symmetry. refine (kriging_det n _ _ _ _ _ _ _ _ NS AE KE _ (Mx e Hie) (My e Hie)).
    intros j Hj. cbn beta. rewrite QE by auto. reflexivity.
Qed.

Lemma same_indices g K K' cur cur' nn test train test' train' targets N M n q ex :
  lk_ok K (feature_count train) cur [] -> lk_ok K' (feature_count train') cur' [] ->
  dataset test M -> dataset train N -> ndim test = ndim train -> feature_count test = feature_count train ->
  dataset test' M -> dataset train' N -> ndim test' = ndim train' -> feature_count test' = feature_count train' ->
  shape targets = N :: ex -> no_coincidence ex [n] ->
  shape (gp_Kout g) = [] -> at_ (gp_Kout g) [] = 1 -> 0 <= gp_var_scale g ->
  index_matrix nn M n N q -> noise_fits (gp_noise g) M n -> well_posed (gp_noise g) train M n q -> well_posed (gp_noise g) train' M n q ->
  same_cov K K' cur cur' test train test' train' M N ->
  exists mean var mean' var',
    regress_from_indices ls (lib_model gamma kv g K cur) (arange M) nn test train targets = Ok (mean, var) /\
    regress_from_indices ls (lib_model gamma kv g K' cur') (arange M) nn test' train' targets = Ok (mean', var') /\
    forall x, (x < M)%nat -> at_ var' [x] = at_ var [x] /\ forall e, inb ex e -> at_ mean' (x :: e) = at_ mean (x :: e).
Proof.
  intros OK OK' D1 D2 ND FC D1' D2' ND' FC' HT NC SK K1 SC IM NF WP WP' SA.
  destruct (regress_indices gamma kv ls EX g K cur [] nn test train targets N M n q ex) as (mean & var & E & _ & _ & V); auto.
  destruct (regress_indices gamma kv ls EX g K' cur' [] nn test' train' targets N M n q ex) as (mean' & var' & E' & _ & _ & V'); auto.
  exists mean, var, mean', var'. split; [exact E|]. split; [exact E'|]. intros x Hx.
  destruct (V x Hx) as (Mx & Vx & _). destruct (V' x Hx) as (My & Vy & _).
  apply (same_predictions g K K' cur cur' test train test' train' targets M N n q q x mean mean' var var' ex SA Hx); auto.
  - intros j Hj. apply (proj2 IM x j Hx Hj).
  - apply (well_posed_ns gamma kv K cur [] (gp_noise g) train M n q); auto.
Qed.

(** The covariance is a function of the scaled distance. *)
Lemma cov_eq K F F' cur cur' v v' : same_smoothness K cur cur' ->
  scaled_sqdist F' (scale_of (lk_def K) cur' []) v' (fun _ => 0) = scaled_sqdist F (scale_of (lk_def K) cur []) v (fun _ => 0) ->
  cov K F' cur' v' = cov K F cur v.
Proof.
  intros SM E. destruct K as [d|d sm p]; cbn [lk_cov lk_def same_smoothness] in *; [unfold rbf_cov|unfold matern_cov]; rewrite E; [reflexivity|].
  unfold kw_or. cbn. rewrite SM. reflexivity.
Qed.
Lemma iso_sqdist K l F cur (a b : nat -> R) : isotropic K l ->
  scaled_sqdist F (scale_of (lk_def K) cur []) (fun f => a f - b f) (fun _ => 0) = / (cur l) ^ 2 * sqdist F a b.
Proof.
  intros I. unfold scaled_sqdist, sqdist. rewrite <- rsum_scal. apply rsum_ext. intros f _.
  assert (E : scale_of (lk_def K) cur [] f = cur l).
  { unfold isotropic in I. destruct (lk_def K); cbn [scale_of kw_or]; subst; try reflexivity. destruct I. }
  rewrite E. replace (a f - b f - 0) with (a f - b f) by ring. unfold Rdiv. rewrite Rpow_mult_distr, pow_inv. ring.
Qed.
Lemma similar_cov K l cur cur' test train test' train' M N c : isotropic K l -> same_smoothness K cur cur' -> 0 < c -> cur l <> 0 ->
  cur' l = c * cur l -> similar c test train test' train' M N -> same_cov K K cur cur' test train test' train' M N.
Proof.
  intros I SM C L E [S1 S2].
  assert (X : forall r r', r' = c ^ 2 * r -> / cur' l ^ 2 * r' = / cur l ^ 2 * r).
  { intros r r' ->. rewrite E. field. split; [exact L|lra]. }
  split; intros; unfold kcov; (apply cov_eq; [exact SM|]); rewrite !(iso_sqdist K l) by auto; apply X; [apply S1|apply S2]; auto.
Qed.
Lemma units_cov K cur cur' s t test train test' train' M N : same_smoothness K cur cur' ->
  feature_count test = feature_count train -> positive_scales (lk_def K) (feature_count train) cur [] ->
  new_units s t test test' M -> new_units s t train train' N ->
  (forall f, (f < feature_count train)%nat -> 0 < s f /\ scale_of (lk_def K) cur' [] f = s f * scale_of (lk_def K) cur [] f) ->
  same_cov K K cur cur' test train test' train' M N.
Proof.
  intros SM FC POS [ST U1] [STr U2] H.
  assert (FE : feature_count train' = feature_count train) by (unfold feature_count; rewrite STr; reflexivity).
  split; intros x a Hx Ha; unfold kcov; rewrite FE; (apply cov_eq; [exact SM|]); unfold scaled_sqdist; apply rsum_ext; intros f Hf;
    destruct (H f Hf) as [P ->]; pose proof (POS f Hf); rewrite ?U1, ?U2 by (rewrite ?FC; auto); field; lra.
Qed.
Lemma units_similar c t test train test' train' M N : feature_count test = feature_count train ->
  new_units (fun _ => c) t test test' M -> new_units (fun _ => c) t train train' N -> similar c test train test' train' M N.
Proof.
  intros FC [ST U1] [STr U2].
  assert (FE : feature_count train' = feature_count train) by (unfold feature_count; rewrite STr; reflexivity).
  split; intros x a Hx Ha; unfold row_dist; rewrite FE; unfold sqdist; rewrite <- rsum_scal; apply rsum_ext; intros f Hf;
    rewrite ?U1, ?U2 by (rewrite ?FC; auto); ring.
Qed.
Lemma units_distinct s t X X' N w q : new_units s t X X' N -> (forall f, (f < feature_count X)%nat -> 0 < s f) ->
  (forall j, (j < w)%nat -> (q j < N)%nat) -> distinct_rows X w q -> distinct_rows X' w q.
Proof.
  intros [ST U] P B D i j Hi Hj Hij. destruct (D i j Hi Hj Hij) as (f & Hf & N0). exists f.
  split; [unfold feature_count in *; rewrite ST; exact Hf|]. rewrite !U by auto. intros E. apply N0. pose proof (P f Hf).
  apply (Rmult_eq_reg_l (s f)); lra.
Qed.

Lemma units_ok K F cur cur' (s : nat -> R) : lk_ok K F cur [] ->
  (forall f, (f < F)%nat -> 0 < s f /\ scale_of (lk_def K) cur' [] f = s f * scale_of (lk_def K) cur [] f) -> lk_ok K F cur' [].
Proof.
  intros (A & B & C & D) H. split; [exact A|]. split; [exact B|]. split; [|exact D].
  intros f Hf. destruct (H f Hf) as [P ->]. apply Rmult_lt_0_compat; auto.
Qed.
Lemma units_indices g K cur cur' nn test train test' train' targets N M n q ex s t :
  lk_ok K (feature_count train) cur [] -> same_smoothness K cur cur' ->
  (forall f, (f < feature_count train)%nat -> 0 < s f /\ scale_of (lk_def K) cur' [] f = s f * scale_of (lk_def K) cur [] f) ->
  new_units s t test test' M -> new_units s t train train' N ->
  dataset test M -> dataset train N -> ndim test = ndim train -> feature_count test = feature_count train ->
  shape targets = N :: ex -> no_coincidence ex [n] ->
  shape (gp_Kout g) = [] -> at_ (gp_Kout g) [] = 1 -> 0 <= gp_var_scale g ->
  index_matrix nn M n N q -> noise_fits (gp_noise g) M n -> well_posed (gp_noise g) train M n q ->
  exists mean var mean' var',
    regress_from_indices ls (lib_model gamma kv g K cur) (arange M) nn test train targets = Ok (mean, var) /\
    regress_from_indices ls (lib_model gamma kv g K cur') (arange M) nn test' train' targets = Ok (mean', var') /\
    forall x, (x < M)%nat -> at_ var' [x] = at_ var [x] /\ forall e, inb ex e -> at_ mean' (x :: e) = at_ mean (x :: e).
Proof.
  intros OK SM H U1 U2 D1 D2 ND FC HT NC SK K1 SC IM NF WP.
  pose proof (proj1 U1) as ST. pose proof (proj1 U2) as STr.
  assert (FE : feature_count train' = feature_count train) by (unfold feature_count; rewrite STr; reflexivity).
  apply (same_indices g K K cur cur' nn test train test' train' targets N M n q ex); auto.
  - rewrite FE. apply (units_ok K _ cur cur' s); auto.
  - unfold dataset. rewrite ST. exact D1.
  - unfold dataset. rewrite STr. exact D2.
  - unfold ndim. rewrite ST, STr. exact ND.
  - unfold feature_count. rewrite ST, STr. exact FC.
  - intros x Hx. destruct (WP x Hx) as [P|[P D]]; [left; exact P|right; split; [exact P|]].
    apply (units_distinct s t train train' N n (q x) U2); auto; [intros f Hf; apply H; auto|]. intros j Hj. apply (proj2 IM x j Hx Hj).
  - apply (units_cov K cur cur' s t); auto. apply OK.
Qed.

Section Any.
Variable knn : dict nnval -> list point -> point -> nat -> list (nat * R).
Variable hnsw : nnval -> list point -> point -> nat -> list (nat * R).
Variable dist : dict nnval -> point -> point -> R.
Hypothesis Hsk : sklearn_ok knn dist.

Lemma same_any en method kw w en' method' kw' w' g K K' cur cur' test train test' train' targets N M n ex c :
  lower method = "exact"%string -> euclidean_kw kw -> nn_init en (rows_of train) n method kw = Ok w ->
  lower method' = "exact"%string -> euclidean_kw kw' -> nn_init en' (rows_of train') n method' kw' = Ok w' -> (0 < n <= N /\ 0 < M)%nat ->
  lk_ok K (feature_count train) cur [] -> lk_ok K' (feature_count train') cur' [] ->
  dataset test M -> dataset train N -> ndim test = ndim train -> feature_count test = feature_count train ->
  dataset test' M -> dataset train' N -> ndim test' = ndim train' -> feature_count test' = feature_count train' ->
  shape targets = N :: ex -> no_coincidence ex [n] ->
  shape (gp_Kout g) = [] -> at_ (gp_Kout g) [] = 1 -> 0 <= gp_var_scale g ->
  noise_fits (gp_noise g) M n -> sound_noise (gp_noise g) train N M n -> 0 < c ->
  similar c test train test' train' M N -> same_cov K K' cur cur' test train test' train' M N ->
  exists mean var mean' var',
    regress_any ls knn hnsw (Univariate (lib_model gamma kv g K cur)) test train w targets = Ok (mean, var) /\
    regress_any ls knn hnsw (Univariate (lib_model gamma kv g K' cur')) test' train' w' targets = Ok (mean', var') /\
    forall x, (x < M)%nat -> no_ties test train N x ->
      at_ var' [x] = at_ var [x] /\ forall e, inb ex e -> at_ mean' (x :: e) = at_ mean (x :: e).
Proof.
  intros Hm He Hi Hm' He' Hi' Hn OK OK' D1 D2 ND FC D1' D2' ND' FC' HT NC SK K1 SC NF SN C [SI1 SI2] SA.
  assert (C2 : 0 < c ^ 2) by (apply pow_lt; auto).
  assert (SN' : sound_noise (gp_noise g) train' N M n).
  { destruct SN as [P|[P D]]; [left; auto|right; split; [auto|]]. intros i j Hi1 Hj1 Hij.
    destruct (D i j Hi1 Hj1 Hij) as (f & Hf & NE).
    assert (NZ : row_dist train' train' i j <> 0).
    { rewrite SI2 by auto. intros Z. apply Rmult_integral in Z as [Z|Z]; [lra|]. apply row_dist_zero in Z. apply NE. apply Z; auto. }
    destruct (differs_dec (feature_count train') (feature train' i) (feature train' j)) as [X|X]; [|exact X].
    exfalso. apply NZ. apply row_dist_refl. exact X. }
  destruct (regress_any_nbr gamma kv ls EX knn hnsw dist Hsk en method kw w g K cur [] test train targets N M n ex)
    as (mean & var & E & _ & _ & NS & V); auto.
  destruct (regress_any_nbr gamma kv ls EX knn hnsw dist Hsk en' method' kw' w' g K' cur' [] test' train' targets N M n ex)
    as (mean' & var' & E' & _ & _ & _ & V'); auto.
  exists mean, var, mean', var'. split; [exact E|]. split; [exact E'|]. intros x Hx NT.
  destruct (V x Hx) as (NRx & Mx & Vx & _). destruct (V' x Hx) as (NRy & My & Vy & _).
  apply (same_predictions g K K' cur cur' test train test' train' targets M N n (nbr knn hnsw w test) (nbr knn hnsw w' test') x mean mean' var var' ex SA Hx); auto.
  - apply NRx.
  - apply (nearest_unique test train N x n); auto. apply (nearest_scaled test train test' train' N x n _ (c ^ 2)); auto.
Qed.

Lemma units_any en method kw w en' method' kw' w' g K cur cur' test train test' train' targets N M n ex c t :
  lower method = "exact"%string -> euclidean_kw kw -> nn_init en (rows_of train) n method kw = Ok w ->
  lower method' = "exact"%string -> euclidean_kw kw' -> nn_init en' (rows_of train') n method' kw' = Ok w' -> (0 < n <= N /\ 0 < M)%nat ->
  lk_ok K (feature_count train) cur [] -> same_smoothness K cur cur' -> 0 < c ->
  (forall f, (f < feature_count train)%nat -> scale_of (lk_def K) cur' [] f = c * scale_of (lk_def K) cur [] f) ->
  new_units (fun _ => c) t test test' M -> new_units (fun _ => c) t train train' N ->
  dataset test M -> dataset train N -> ndim test = ndim train -> feature_count test = feature_count train ->
  shape targets = N :: ex -> no_coincidence ex [n] ->
  shape (gp_Kout g) = [] -> at_ (gp_Kout g) [] = 1 -> 0 <= gp_var_scale g ->
  noise_fits (gp_noise g) M n -> sound_noise (gp_noise g) train N M n ->
  exists mean var mean' var',
    regress_any ls knn hnsw (Univariate (lib_model gamma kv g K cur)) test train w targets = Ok (mean, var) /\
    regress_any ls knn hnsw (Univariate (lib_model gamma kv g K cur')) test' train' w' targets = Ok (mean', var') /\
    forall x, (x < M)%nat -> no_ties test train N x ->
      at_ var' [x] = at_ var [x] /\ forall e, inb ex e -> at_ mean' (x :: e) = at_ mean (x :: e).
Proof.
  intros Hm He Hi Hm' He' Hi' Hn OK SM C H U1 U2 D1 D2 ND FC HT NC SK K1 SC NF SN.
  pose proof (proj1 U1) as ST. pose proof (proj1 U2) as STr.
  assert (FE : feature_count train' = feature_count train) by (unfold feature_count; rewrite STr; reflexivity).
  apply (same_any en method kw w en' method' kw' w' g K K cur cur' test train test' train' targets N M n ex c); auto.
  - rewrite FE. apply (units_ok K _ cur cur' (fun _ => c)); auto.
  - unfold dataset. rewrite ST. exact D1.
  - unfold dataset. rewrite STr. exact D2.
  - unfold ndim. rewrite ST, STr. exact ND.
  - unfold feature_count. rewrite ST, STr. exact FC.
  - apply (units_similar c t); auto.
  - apply (units_cov K cur cur' (fun _ => c) t); auto. apply OK.
Qed.

Lemma sim_any en method kw w en' method' kw' w' g K l cur cur' test train test' train' targets N M n ex c :
  lower method = "exact"%string -> euclidean_kw kw -> nn_init en (rows_of train) n method kw = Ok w ->
  lower method' = "exact"%string -> euclidean_kw kw' -> nn_init en' (rows_of train') n method' kw' = Ok w' -> (0 < n <= N /\ 0 < M)%nat ->
  lk_ok K (feature_count train) cur [] -> (0 < feature_count train')%nat -> isotropic K l ->
  0 < c -> cur' l = c * cur l -> same_smoothness K cur cur' -> similar c test train test' train' M N ->
  dataset test M -> dataset train N -> ndim test = ndim train -> feature_count test = feature_count train ->
  dataset test' M -> dataset train' N -> ndim test' = ndim train' -> feature_count test' = feature_count train' ->
  shape targets = N :: ex -> no_coincidence ex [n] ->
  shape (gp_Kout g) = [] -> at_ (gp_Kout g) [] = 1 -> 0 <= gp_var_scale g ->
  noise_fits (gp_noise g) M n -> sound_noise (gp_noise g) train N M n ->
  exists mean var mean' var',
    regress_any ls knn hnsw (Univariate (lib_model gamma kv g K cur)) test train w targets = Ok (mean, var) /\
    regress_any ls knn hnsw (Univariate (lib_model gamma kv g K cur')) test' train' w' targets = Ok (mean', var') /\
    forall x, (x < M)%nat -> no_ties test train N x ->
      at_ var' [x] = at_ var [x] /\ forall e, inb ex e -> at_ mean' (x :: e) = at_ mean (x :: e).
Proof.
  intros Hm He Hi Hm' He' Hi' Hn OK F0 I C L SM SI D1 D2 ND FC D1' D2' ND' FC' HT NC SK K1 SC NF SN.
  assert (SE : forall f c, scale_of (lk_def K) c [] f = c l).
  { intros f c0. unfold isotropic in I. destruct (lk_def K); cbn [scale_of kw_or]; subst; try reflexivity. destruct I. }
  assert (LP : 0 < cur l). { destruct OK as (_ & F1 & P & _). rewrite <- (SE O cur). apply P. auto. }
  apply (same_any en method kw w en' method' kw' w' g K K cur cur' test train test' train' targets N M n ex c); auto.
  - destruct OK as (A & B & P & D). split; [|split; [auto|split; [|exact D]]].
    + unfold isotropic in I. destruct (lk_def K); cbn [deformation_ok] in *; auto. destruct I.
    + intros f Hf. rewrite SE, L. apply Rmult_lt_0_compat; auto.
  - apply (similar_cov K l cur cur' test train test' train' M N c); auto. lra.
Qed.
End Any.
End Same.
