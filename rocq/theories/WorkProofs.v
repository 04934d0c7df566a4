(** Proofs about the complete regression workflow: lookup, tensors, kernels and posterior. *)
From Coq Require Import Lia Lra Sorted.
From Verif Require Import Base BaseFacts NdModel NdFacts RSum LinAlgModel LinAlgSpec LinAlgFacts
  GPModel NoiseModel MuyGPSModel MuyGPSProofs GPSpec GPTheorems TensorModel TensorSpec TensorProofs
  NeighborsModel NeighborsSpec NeighborsProofs FlowModel FlowSpec FlowProofs FlowLemmas PointwiseSpec LibSpec LibProofs
  MultiModel DriverModel ClassifyModel WorkModel WorkSpec.
Local Open Scope R_scope.

(** ** Feature arrays as lists of rows *)
Definition row_pt (t : nd R) (x : nat) : point := map (feature t x) (seq 0 (feature_count t)).

Lemma rows_of_ok t n : dataset t n -> as_rows (rows_of t) = Ok (map (row_pt t) (seq 0 n)).
Proof.
  intros [E|[f E]]; unfold rows_of; rewrite E; cbn [as_rows]; f_equal.
  - rewrite map_map. apply map_ext. intros i. unfold row_pt, feature, feature_count. rewrite E. reflexivity.
  - apply map_ext. intros i. unfold row_pt, feature, feature_count. rewrite E. reflexivity.
Qed.
Lemma row_count_ok t n : dataset t n -> row_count t = Ok n.
Proof. intros [E|[f E]]; unfold row_count; rewrite E; reflexivity. Qed.

Lemma sq_dist_map (f g : nat -> R) : forall n s, sq_dist (map f (seq s n)) (map g (seq s n)) = rsum n (fun i => (f (s + i)%nat - g (s + i)%nat) ^ 2).
Proof.
  induction n as [|n IH]; intros s; [reflexivity|]. cbn [seq map sq_dist]. rewrite IH, rsum_S_l.
  rewrite Nat.add_0_r. f_equal. apply rsum_ext. intros i Hi. replace (s + S i)%nat with (S s + i)%nat by lia. reflexivity.
Qed.
Lemma row_dist_sq test train x a : feature_count test = feature_count train ->
  sq_dist (row_pt test x) (row_pt train a) = row_dist test train x a.
Proof. intros E. unfold row_pt. rewrite E, sq_dist_map. unfold row_dist, sqdist. apply rsum_ext. reflexivity. Qed.
Lemma row_pt_same X Y x y : feature_count X = feature_count Y -> same_row X Y x y -> row_pt X x = row_pt Y y.
Proof.
  intros E H. unfold row_pt. rewrite E. apply map_ext_in. intros f Hf. apply in_seq in Hf. apply H. lia.
Qed.

Lemma row_dist_same X Y Z x y a : feature_count X = feature_count Y -> feature_count Y = feature_count Z -> same_row X Y x y ->
  row_dist X Z x a = row_dist Y Z y a.
Proof.
  intros E1 E2 H. unfold row_dist, sqdist. apply rsum_ext. intros f Hf. rewrite H by congruence. reflexivity.
Qed.
Lemma row_dist_same_r X Y Z x y a : feature_count Y = feature_count Z -> same_row Y Z y a ->
  row_dist X Y x y = row_dist X Z x a.
Proof.
  intros E H. unfold row_dist, sqdist. rewrite E. apply rsum_ext. intros f Hf. rewrite H by auto. reflexivity.
Qed.
Lemma row_dist_nonneg X Y x a : 0 <= row_dist X Y x a.
Proof. apply rsum_nonneg. intros. apply pow2_ge_0. Qed.
Lemma row_dist_zero X Y x a : row_dist X Y x a = 0 -> same_row X Y x a.
Proof.
  intros H f Hf. pose proof (rsum_zero_inv (feature_count Y) (fun f => (feature X x f - feature Y a f) ^ 2)) as Z.
  assert (E : (feature X x f - feature Y a f) ^ 2 = 0).
  { apply Z; auto. intros; apply pow2_ge_0. }
  destruct (Req_dec (feature X x f - feature Y a f) 0) as [D|D]; [lra|].
  exfalso. apply (pow_nonzero _ 2) in D. auto.
Qed.
Lemma row_dist_refl X Y x a : same_row X Y x a -> row_dist X Y x a = 0.
Proof.
  intros H. unfold row_dist, sqdist. rewrite <- (rsum_0 (feature_count Y)). apply rsum_ext. intros f Hf. rewrite H by auto. ring.
Qed.

(** ** The lookup *)
Section Lookup.
Variable knn : dict nnval -> list point -> point -> nat -> list (nat * R).
Variable hnsw : nnval -> list point -> point -> nat -> list (nat * R).
Variable dist : dict nnval -> point -> point -> R.
Hypothesis Hsk : sklearn_ok knn dist.

(** The neighbours of a row depend on this row and the fitted data only. *)
Definition nbr (w : nn_wrapper) (X : nd R) (x j : nat) : nat :=
  nth j (map fst (query_row knn hnsw w (row_pt X x) (nn_count w))) O.

Lemma sorted_nth (l : list (nat * R)) : StronglySorted (fun a b => snd a <= snd b) l ->
  forall i j d, (i <= j)%nat -> (j < List.length l)%nat -> snd (nth i l d) <= snd (nth j l d).
Proof.
  induction 1 as [|a l S IH F]; intros i j d Hij Hj; cbn in Hj; [lia|].
  destruct i as [|i], j as [|j]; cbn [nth]; try lia; try lra.
  - rewrite Forall_forall in F. apply F. apply nth_In. lia.
  - apply IH; lia.
Qed.

Lemma nearest_rows_of test train N x n ans : (n <= N)%nat -> feature_count test = feature_count train ->
  nearest sq_dist (map (row_pt train) (seq 0 N)) (fun _ => True) (row_pt test x) n ans ->
  nearest_rows test train N x n (fun j => nth j (map fst ans) O).
Proof.
  intros Hn FC (L & ND & EL & SO & OUT). rewrite map_length, seq_length in EL, OUT.
  assert (NT : forall a, (a < N)%nat -> nth a (map (row_pt train) (seq 0 N)) [] = row_pt train a).
  { intros a Ha. rewrite (nth_indep _ [] (row_pt train O)) by (rewrite map_length, seq_length; auto).
    rewrite map_nth, seq_nth by auto. reflexivity. }
  assert (IN : forall j, (j < n)%nat -> In (nth j (map fst ans) O, snd (nth j ans (O, 0))) ans).
  { intros j Hj. change O with (fst (O, 0)) at 1. rewrite map_nth, <- surjective_pairing. apply nth_In. lia. }
  assert (DJ : forall j, (j < n)%nat -> snd (nth j ans (O, 0)) = row_dist test train x (nth j (map fst ans) O)).
  { intros j Hj. destruct (EL _ _ (IN j Hj)) as (A & _ & B). rewrite B, NT, row_dist_sq; auto. }
  split; [|split; [|split]].
  - intros j Hj. apply (EL _ _ (IN j Hj)).
  - intros i j Hi Hj E. apply (NoDup_nth (map fst ans) O) in E; rewrite ?map_length; auto; lia.
  - intros i j Hij Hj. rewrite <- !DJ by lia. apply sorted_nth; auto; lia.
  - intros a Ha NA j Hj. rewrite <- DJ by auto. rewrite <- (row_dist_sq test train x a FC), <- (NT a Ha).
    apply (OUT a (nth j (map fst ans) O)); auto. intros I. apply (In_nth _ _ O) in I as (i & Hi & E).
    rewrite map_length, L in Hi. apply (NA i Hi E).
Qed.

Lemma lookup_rows en method kw w test train N M n : lower method = "exact"%string -> euclidean_kw kw ->
  nn_init en (rows_of train) n method kw = Ok w -> (0 < n <= N /\ 0 < M)%nat ->
  dataset test M -> dataset train N -> feature_count test = feature_count train ->
  exists I D, get_nns knn hnsw w (rows_of test) = Ok (I, D) /\ nn_count w = n /\
    index_matrix (index_array n I) M n N (nbr w test) /\
    forall x, (x < M)%nat -> nearest_rows test train N x n (nbr w test x).
Proof.
  intros Hm He Hi Hn Dt Dr FC. assert (HnN : (n <= N)%nat) by lia. destruct (nn_init_exact _ _ _ _ _ _ Hm Hi) as [rows [Er Ew]].
  rewrite (rows_of_ok _ _ Dr) in Er. injection Er as <-.
  assert (NR : forall x, nearest_rows test train N x n (nbr w test x)).
  { intros x. unfold nbr. apply (nearest_rows_of test train N x n); auto. rewrite Ew. cbn [nn_count].
    apply (query_row_euclid knn hnsw dist Hsk); auto. rewrite map_length, seq_length. auto. }
  unfold get_nns. rewrite (rows_of_ok _ _ Dt). cbn [bind]. unfold get_nns_k.
  assert (RF : refuses w (map (row_pt test) (seq 0 M)) (nn_count w) = false).
  { unfold refuses. rewrite Ew. cbn [nn_meth nn_count]. rewrite map_length, seq_length.
    destruct (Nat.eqb_spec M 0); [lia|]. destruct (Nat.eqb_spec n 0); [lia|]. reflexivity. }
  assert (LT : (List.length (nn_train w) <? nn_count w)%nat = false).
  { apply Nat.ltb_ge. rewrite Ew. cbn [nn_train nn_count]. rewrite map_length, seq_length. auto. }
  rewrite LT, RF. cbn [orb]. assert (CW : nn_count w = n) by (rewrite Ew; reflexivity).
  do 2 eexists. split; [reflexivity|]. split; [auto|]. split; [|auto]. rewrite CW.
  split; [cbn [index_array shape]; rewrite !map_length, seq_length; reflexivity|].
  intros x j Hx Hj. split; [|apply (proj1 (NR x)); auto].
  cbn [index_array at_]. f_equal. unfold nbr. rewrite CW. f_equal. rewrite !map_map.
  set (F := fun y => map fst (query_row knn hnsw w (row_pt test y) n)).
  rewrite (nth_indep _ [] (F O)) by (rewrite map_length, seq_length; auto).
  rewrite (map_nth F), seq_nth by auto. reflexivity.
Qed.

Lemma nbr_same w X Y x y j : feature_count X = feature_count Y -> same_row X Y x y -> nbr w X x j = nbr w Y y j.
Proof. intros E H. unfold nbr. rewrite (row_pt_same X Y x y) by auto. reflexivity. Qed.
End Lookup.

(** ** Uniqueness of the neighbours without ties *)
Lemma nearest_unique test train N x n q q' : no_ties test train N x ->
  nearest_rows test train N x n q -> nearest_rows test train N x n q' -> forall j, (j < n)%nat -> q j = q' j.
Proof.
  intros NT.
  assert (H : forall q q', nearest_rows test train N x n q -> nearest_rows test train N x n q' ->
     forall j, (j < n)%nat -> (forall i, (i < j)%nat -> q i = q' i) ->
     row_dist test train x (q' j) <= row_dist test train x (q j)).
  { clear q q'. intros q q' (B & I & S & O) (B' & I' & S' & O') j Hj E.
    destruct (Rle_lt_dec (row_dist test train x (q' j)) (row_dist test train x (q j))) as [L|L]; [exact L|].
    apply O'; auto. intros i Hi Ei.
    destruct (Nat.lt_ge_cases i j) as [C|C].
    - rewrite <- (E i C) in Ei. apply I in Ei; auto; lia.
    - specialize (S' j i C Hi). rewrite Ei in S'. lra. }
  intros A B. intros j. induction j as [j IH] using lt_wf_ind. intros Hj.
  assert (E : forall i, (i < j)%nat -> q i = q' i) by (intros i Hi; apply IH; lia).
  assert (E' : forall i, (i < j)%nat -> q' i = q i) by (intros i Hi; symmetry; apply E; auto).
  pose proof (H q q' A B j Hj E). pose proof (H q' q B A j Hj E').
  apply NT; [apply A; auto|apply B; auto|lra].
Qed.

(** A training row at the test point is among its neighbours. *)
Lemma nearest_self test train N x n q a : nearest_rows test train N x n q -> (0 < n)%nat -> (a < N)%nat ->
  feature_count test = feature_count train ->
  distinct_rows train N (fun i => i) -> same_row test train x a -> exists j, (j < n)%nat /\ q j = a.
Proof.
  intros (B & I & SS & OUT) Hn Ha FC DI SR.
  destruct (Nat.eq_dec (q O) a) as [E|E]; [exists O; auto|].
  destruct (DI (q O) a (B O Hn) Ha E) as (f & Hf & NE).
  assert (D : {exists j, (j < n)%nat /\ q j = a} + {forall j, (j < n)%nat -> q j <> a}).
  { clear. induction n as [|n IH]; [right; intros j Hj; lia|].
    destruct (Nat.eq_dec (q n) a) as [E|E]; [left; exists n; split; [lia|auto]|].
    destruct IH as [L|R]; [left; destruct L as (j & Hj & Ej); exists j; split; [lia|auto]|].
    right. intros j Hj. destruct (Nat.eq_dec j n) as [->|Nj]; [auto|apply R; lia]. }
  destruct D as [L|R]; [exact L|]. exfalso.
  pose proof (OUT a Ha R O Hn) as L. rewrite (row_dist_refl test train x a SR) in L.
  pose proof (row_dist_nonneg test train x (q O)) as P.
  assert (Z : row_dist test train x (q O) = 0) by lra. apply row_dist_zero in Z.
  apply NE. rewrite <- (Z f Hf). apply SR. auto.
Qed.

(** ** Prediction from an index matrix, targets of any trailing shape *)
Lemma targets_take (targets : nd R) nn N n w q ex : shape targets = N :: ex -> index_matrix nn n w N q ->
  exists T, take targets nn = Ok T /\ shape T = n :: w :: ex /\
    forall x j e, (x < n)%nat -> (j < w)%nat -> at_ T (x :: j :: e) = at_ targets (q x j :: e).
Proof.
  intros HT [Hs H]. destruct (take_ok targets nn N ex HT) as (T & E & ST & Hv).
  { intros idx Hi. rewrite Hs in Hi. apply inb_inv2 in Hi as (x & j & -> & Hx & Hj).
    destruct (H x j Hx Hj) as [-> Hl]. apply in_range_of_nat; auto. }
  exists T. split; [auto|]. split; [rewrite ST, Hs; reflexivity|]. intros x j e Hx Hj.
  destruct (H x j Hx Hj) as [Ej Hl]. specialize (Hv [x; j] e (q x j)). cbn [app] in Hv. apply Hv.
  - rewrite Hs. apply inb2; auto.
  - rewrite Ej. apply selects_of_nat; auto.
Qed.

Section Regress.
Variables (gamma : R -> R) (kv : R -> R -> R).
Variable ls : lsolver.
Hypothesis EX : exact_solver ls.

Lemma regress_indices g K cur kw nn test train targets N M w q ex :
  lk_ok K (feature_count train) cur kw -> dataset test M -> dataset train N -> ndim test = ndim train ->
  feature_count test = feature_count train -> shape targets = N :: ex -> no_coincidence ex [w] ->
  shape (gp_Kout g) = [] -> at_ (gp_Kout g) [] = 1 -> 0 <= gp_var_scale g ->
  index_matrix nn M w N q -> noise_fits (gp_noise g) M w -> well_posed (gp_noise g) train M w q ->
  exists mean var,
    regress_from_indices ls (mkMm g (lk_call gamma kv K cur kw)) (arange M) nn test train targets = Ok (mean, var) /\
    shape mean = M :: ex /\ shape var = [M] /\
    forall x, (x < M)%nat ->
      (forall e, inb ex e ->
        kriging w (nbr_matrix (lk_cov gamma kv K (feature_count train) cur kw) (gp_noise g) train q x)
          (fun j => kcov (lk_cov gamma kv K (feature_count train) cur kw) test train x (q x j))
          (fun j => at_ targets (q x j :: e)) (at_ mean (x :: e))) /\
      (exists wv, solves w (nbr_matrix (lk_cov gamma kv K (feature_count train) cur kw) (gp_noise g) train q x) wv
          (fun j => kcov (lk_cov gamma kv K (feature_count train) cur kw) test train x (q x j)) /\
        at_ var [x] = gp_var_scale g *
          (1 - dot w wv (fun j => kcov (lk_cov gamma kv K (feature_count train) cur kw) test train x (q x j)))) /\
      0 <= at_ var [x] <= gp_var_scale g.
Proof.
  intros OK D1 D2 ND FC HT NC SK K1 SC NN NF WP.
  set (k := lk_cov gamma kv K (feature_count train) cur kw).
  assert (PK : pointwise_kernel (feature_count train) (lk_call gamma kv K cur kw) k) by (apply lk_pointwise; auto).
  assert (NS : forall x, (x < M)%nat -> nonsingular w (nbr_matrix k (gp_noise g) train q x))
    by (apply well_posed_ns; auto).
  destruct (crosswise_kernel (feature_count train) (lk_call gamma kv K cur kw) k test train (arange M) nn M N M w (fun x => x) q)
    as (cw & Kc & Ecw & EKc & SKc & HKc); auto.
  destruct (pairwise_kernel (feature_count train) (lk_call gamma kv K cur kw) k train nn N M w q PK D2 eq_refl NN)
    as (pw & Kin & Epw & EK & SKi & HKv).
  destruct (targets_take targets nn N M w q ex HT NN) as (T & ET & ST & HTv).
  assert (HKx : forall x, (x < M)%nat -> forall i j, (i < w)%nat -> (j < w)%nat ->
     plus_diag (rowmat Kin x) (noise_at (gp_noise g) None x) i j = nbr_matrix k (gp_noise g) train q x i j).
  { intros x Hx i j Hi Hj. unfold nbr_matrix, plus_diag, rowmat. rewrite HKv; auto. }
  assert (NS' : forall x, (x < M)%nat -> nonsingular w (plus_diag (rowmat Kin x) (noise_at (gp_noise g) None x))).
  { intros x Hx. apply (nonsingular_ext w (nbr_matrix k (gp_noise g) train q x)); auto. intros; symmetry; apply HKx; auto. }
  destruct (gp_mean_total ls EX (gp_noise g) None Kin Kc T M w ex NF SKi SKc ST NC NS') as (mean & Em & Sm & Hm).
  destruct (gp_var_total ls EX (gp_noise g) None Kin Kc (gp_Kout g) M w NF SKi SKc SK NS') as (v & Ev).
  destruct (gp_var_inv ls EX (gp_noise g) None Kin Kc (gp_Kout g) M w v NF SKi SKc SK Ev) as [Sv Hv].
  exists mean, (ndmap (Rmult (gp_var_scale g)) v). split.
  { unfold regress_from_indices. rewrite Ecw. cbn [bind]. rewrite Epw. cbn [bind]. rewrite ET. cbn [bind mm_kernel mm_gp].
    rewrite EK. cbn [bind]. rewrite EKc. cbn [bind]. unfold gp_posterior_mean. rewrite Em. cbn [bind].
    unfold gp_posterior_variance, gp_opt_variance. rewrite Ev. reflexivity. }
  split; [exact Sm|]. split; [exact Sv|]. intros x Hx.
  assert (SOL : forall wv, solves w (plus_diag (rowmat Kin x) (noise_at (gp_noise g) None x)) wv (rowvec Kc x) ->
     solves w (nbr_matrix k (gp_noise g) train q x) wv (fun j => kcov k test train x (q x j))).
  { intros wv Hw. apply (solves_ext w (plus_diag (rowmat Kin x) (noise_at (gp_noise g) None x))); [apply HKx; auto|].
    intros i Hi. etransitivity; [exact (Hw i Hi)|]. unfold rowvec. apply HKc; auto. }
  split; [|].
  - intros e He. destruct (Hm x e Hx He) as (wv & Hw & Val). exists wv. split; [apply SOL; exact Hw|].
    rewrite Val. unfold dot. apply rsum_ext. intros j Hj. rewrite HTv; auto.
  - destruct (Hv x Hx) as (_ & wv & Hw & Val). apply SOL in Hw.
    assert (VE : at_ (ndmap (Rmult (gp_var_scale g)) v) [x] =
       gp_var_scale g * (1 - dot w wv (fun j => kcov k test train x (q x j)))).
    { cbn [ndmap at_]. rewrite Val, K1. f_equal. f_equal. unfold dot, rowvec. apply rsum_ext. intros j Hj. rewrite HKc; auto. }
    split; [exists wv; split; auto|]. rewrite VE.
    assert (B : 0 <= 1 - dot w wv (fun j => kcov k test train x (q x j)) <= 1).
    { apply (kriging_bounds gamma kv K (feature_count train) cur kw w (gp_noise g) train test q x x wv); auto.
      intros i Hi. destruct (WP x Hx) as [P|[P _]]; [apply Rlt_le|]; apply P; auto. }
    nra.
Qed.
End Regress.

Lemma sound_well_posed m test train N M n q : sound_noise m train N M n ->
  (forall x, (x < M)%nat -> nearest_rows test train N x n (q x)) -> well_posed m train M n q.
Proof.
  intros [P|[P D]] NR x Hx; [left; intros; apply P; auto|right]. split; [intros; apply P; auto|].
  destruct (NR x Hx) as (B & I & _). intros i j Hi Hj Hij. apply D; auto.
Qed.

(** ** The workflow *)
Section Any.
Variables (gamma : R -> R) (kv : R -> R -> R).
Variable ls : lsolver.
Hypothesis EX : exact_solver ls.
Variable knn : dict nnval -> list point -> point -> nat -> list (nat * R).
Variable hnsw : nnval -> list point -> point -> nat -> list (nat * R).
Variable dist : dict nnval -> point -> point -> R.
Hypothesis Hsk : sklearn_ok knn dist.

Lemma regress_any_nbr en method kw w g K cur kkw test train targets N M n ex :
  lower method = "exact"%string -> euclidean_kw kw -> nn_init en (rows_of train) n method kw = Ok w -> (0 < n <= N /\ 0 < M)%nat ->
  dataset test M -> dataset train N -> ndim test = ndim train -> feature_count test = feature_count train ->
  lk_ok K (feature_count train) cur kkw -> shape targets = N :: ex -> no_coincidence ex [n] ->
  shape (gp_Kout g) = [] -> at_ (gp_Kout g) [] = 1 -> 0 <= gp_var_scale g ->
  noise_fits (gp_noise g) M n -> sound_noise (gp_noise g) train N M n ->
  exists mean var,
    regress_any ls knn hnsw (Univariate (mkMm g (lk_call gamma kv K cur kkw))) test train w targets = Ok (mean, var) /\
    shape mean = M :: ex /\ shape var = [M] /\
    (forall x, (x < M)%nat -> nonsingular n (nbr_matrix (lk_cov gamma kv K (feature_count train) cur kkw) (gp_noise g) train (nbr knn hnsw w test) x)) /\
    forall x, (x < M)%nat ->
      nearest_rows test train N x n (nbr knn hnsw w test x) /\
      (forall e, inb ex e ->
        kriging n (nbr_matrix (lk_cov gamma kv K (feature_count train) cur kkw) (gp_noise g) train (nbr knn hnsw w test) x)
          (fun j => kcov (lk_cov gamma kv K (feature_count train) cur kkw) test train x (nbr knn hnsw w test x j))
          (fun j => at_ targets (nbr knn hnsw w test x j :: e)) (at_ mean (x :: e))) /\
      (exists wv, solves n (nbr_matrix (lk_cov gamma kv K (feature_count train) cur kkw) (gp_noise g) train (nbr knn hnsw w test) x) wv
          (fun j => kcov (lk_cov gamma kv K (feature_count train) cur kkw) test train x (nbr knn hnsw w test x j)) /\
        at_ var [x] = gp_var_scale g *
          (1 - dot n wv (fun j => kcov (lk_cov gamma kv K (feature_count train) cur kkw) test train x (nbr knn hnsw w test x j)))) /\
      0 <= at_ var [x] <= gp_var_scale g.
Proof.
  intros Hm He Hi Hn D1 D2 ND FC OK HT NC SK K1 SC NF SN. assert (HnN : (n <= N)%nat) by lia.
  destruct (lookup_rows knn hnsw dist Hsk en method kw w test train N M n Hm He Hi Hn D1 D2 FC) as (I & D & EG & CW & IM & NR).
  assert (WP : well_posed (gp_noise g) train M n (nbr knn hnsw w test)) by (apply (sound_well_posed _ test train N); auto).
  destruct (regress_indices gamma kv ls EX g K cur kkw (index_array n I) test train targets N M n (nbr knn hnsw w test) ex)
    as (mean & var & E & S1 & S2 & V); auto.
  exists mean, var. split.
  { unfold regress_any. rewrite (row_count_ok _ _ D1). cbn [bind]. rewrite EG. cbn [bind fst made_regress_from_indices].
    rewrite CW. exact E. }
  split; [auto|]. split; [auto|]. split; [apply well_posed_ns; auto|]. intros x Hx. split; [auto|]. apply V; auto.
Qed.

Lemma kriging_det n A A' k k' y y' v v' : nonsingular n A ->
  (forall i j, (i < n)%nat -> (j < n)%nat -> A i j = A' i j) -> (forall i, (i < n)%nat -> k i = k' i) ->
  (forall i, (i < n)%nat -> y i = y' i) -> kriging n A k y v -> kriging n A' k' y' v' -> v = v'.
Proof.
  intros NS HA Hk Hy (w & W & ->) (w' & W' & ->).
  assert (W2 : solves n A w' k).
  { intros i Hi. rewrite Hk by auto. rewrite <- (W' i Hi). apply rsum_ext. intros j Hj. rewrite HA by auto. reflexivity. }
  pose proof (solves_unique n A w w' k NS W W2) as U. unfold dot. apply rsum_ext. intros j Hj. rewrite U, Hy by auto. reflexivity.
Qed.

Lemma noise_uniform m x y i : uniform_noise m -> noise_at m None x i = noise_at m None y i.
Proof. intros [->|[v ->]]; reflexivity. Qed.
Lemma uniform_fits m b n : uniform_noise m -> noise_fits m b n.
Proof. intros [->|[v ->]]; exact I. Qed.

(** The prediction for a point does not depend on the rest of the test set. *)
Lemma regress_any_rowwise en method kw w g K cur kkw test test' train targets N M M' n ex :
  lower method = "exact"%string -> euclidean_kw kw -> nn_init en (rows_of train) n method kw = Ok w -> (0 < n <= N /\ 0 < M /\ 0 < M')%nat ->
  dataset test M -> dataset test' M' -> dataset train N -> ndim test = ndim train -> ndim test' = ndim train ->
  feature_count test = feature_count train -> feature_count test' = feature_count train ->
  lk_ok K (feature_count train) cur kkw -> shape targets = N :: ex -> no_coincidence ex [n] ->
  shape (gp_Kout g) = [] -> at_ (gp_Kout g) [] = 1 -> 0 <= gp_var_scale g ->
  uniform_noise (gp_noise g) -> sound_noise (gp_noise g) train N (M + M') n ->
  exists mean var mean' var',
    regress_any ls knn hnsw (Univariate (mkMm g (lk_call gamma kv K cur kkw))) test train w targets = Ok (mean, var) /\
    regress_any ls knn hnsw (Univariate (mkMm g (lk_call gamma kv K cur kkw))) test' train w targets = Ok (mean', var') /\
    forall x y, (x < M)%nat -> (y < M')%nat -> same_row test test' x y ->
      at_ var [x] = at_ var' [y] /\ forall e, inb ex e -> at_ mean (x :: e) = at_ mean' (y :: e).
Proof.
  intros Hm He Hi Hn D1 D1' D2 ND ND' FC FC' OK HT NC SK K1 SC UN SN. assert (HnN : (n <= N)%nat) by lia.
  assert (SN1 : sound_noise (gp_noise g) train N M n).
  { destruct SN as [P|[P D]]; [left; intros; apply P; lia|right; split; [intros; apply P; lia|auto]]. }
  assert (SN2 : sound_noise (gp_noise g) train N M' n).
  { destruct SN as [P|[P D]]; [left; intros; apply P; lia|right; split; [intros; apply P; lia|auto]]. }
  destruct (regress_any_nbr en method kw w g K cur kkw test train targets N M n ex) as (mean & var & E & _ & _ & NS & V); auto; try lia.
  { apply uniform_fits; auto. }
  destruct (regress_any_nbr en method kw w g K cur kkw test' train targets N M' n ex) as (mean' & var' & E' & _ & _ & _ & V'); auto; try lia.
  { apply uniform_fits; auto. }
  exists mean, var, mean', var'. split; [exact E|]. split; [exact E'|]. intros x y Hx Hy SR.
  set (k := lk_cov gamma kv K (feature_count train) cur kkw) in *.
  assert (QE : forall j, nbr knn hnsw w test x j = nbr knn hnsw w test' y j).
  { intros j. apply nbr_same; auto. congruence. }
  assert (PK : pointwise_kernel (feature_count train) (lk_call gamma kv K cur kkw) k) by (apply lk_pointwise; auto).
  assert (KE : forall j, kcov k test train x (nbr knn hnsw w test x j) = kcov k test' train y (nbr knn hnsw w test' y j)).
  { intros j. rewrite QE. unfold kcov. apply (proj1 PK). intros f Hf. rewrite (SR f) by congruence. reflexivity. }
  assert (AE : forall i j, (i < n)%nat -> (j < n)%nat -> nbr_matrix k (gp_noise g) train (nbr knn hnsw w test) x i j =
                            nbr_matrix k (gp_noise g) train (nbr knn hnsw w test') y i j).
  { intros i j Hi' Hj'. unfold nbr_matrix, plus_diag. rewrite !QE, (noise_uniform _ x y) by auto. reflexivity. }
  destruct (V x Hx) as (_ & Mx & (wv & W & Vx) & _). destruct (V' y Hy) as (_ & My & (wv' & W' & Vy) & _). split.
  - rewrite Vx, Vy. f_equal. f_equal.
    refine (kriging_det n _ _ _ _ _ _ _ _ (NS x Hx) AE (fun j _ => KE j) (fun j _ => KE j) _ _); [exists wv|exists wv']; split; auto.
  - intros e Hie. refine (kriging_det n _ _ _ _ _ _ _ _ (NS x Hx) AE (fun j _ => KE j) _ (Mx e Hie) (My e Hie)).
    intros j Hj. cbn beta. rewrite QE. reflexivity.
Qed.

(** Reordering the training data. *)
Lemma reordered_nearest test train train' targets targets' N ex p x n q : feature_count train' = feature_count train ->
  reordered train train' targets targets' N ex p -> nearest_rows test train' N x n q ->
  nearest_rows test train N x n (fun j => p (q j)).
Proof.
  intros FC (PM & _ & _ & R) (B & J & SS & OUT).
  assert (DD : forall a, (a < N)%nat -> row_dist test train' x a = row_dist test train x (p a)).
  { intros a Ha. apply row_dist_same_r; auto. apply R; auto. }
  destruct PM as [PB PI] eqn:EPM. split; [|split; [|split]].
  - intros j Hj. apply PB, B; auto.
  - intros i j Hi Hj E. apply J; auto.
  - intros i j Hij Hj. rewrite <- !DD by (apply B; lia). apply SS; auto.
  - intros a Ha NA j Hj. destruct (perm_on_surj N p (conj PB PI) a Ha) as (b & Hb & <-).
    rewrite <- !DD by auto. apply OUT; auto. intros i Hi E. apply (NA i Hi). rewrite E. reflexivity.
Qed.

Lemma regress_any_reordered en method kw w en' method' kw' w' g K cur kkw test train train' targets targets' N M n ex p :
  lower method = "exact"%string -> euclidean_kw kw -> nn_init en (rows_of train) n method kw = Ok w ->
  lower method' = "exact"%string -> euclidean_kw kw' -> nn_init en' (rows_of train') n method' kw' = Ok w' -> (0 < n <= N /\ 0 < M)%nat ->
  dataset test M -> dataset train N -> ndim test = ndim train -> feature_count test = feature_count train ->
  lk_ok K (feature_count train) cur kkw -> shape targets = N :: ex -> no_coincidence ex [n] ->
  shape (gp_Kout g) = [] -> at_ (gp_Kout g) [] = 1 -> 0 <= gp_var_scale g ->
  uniform_noise (gp_noise g) -> sound_noise (gp_noise g) train N M n ->
  reordered train train' targets targets' N ex p ->
  exists mean var mean' var',
    regress_any ls knn hnsw (Univariate (mkMm g (lk_call gamma kv K cur kkw))) test train w targets = Ok (mean, var) /\
    regress_any ls knn hnsw (Univariate (mkMm g (lk_call gamma kv K cur kkw))) test train' w' targets' = Ok (mean', var') /\
    forall x, (x < M)%nat -> no_ties test train N x ->
      at_ var [x] = at_ var' [x] /\ forall e, inb ex e -> at_ mean (x :: e) = at_ mean' (x :: e).
Proof.
  intros Hm He Hi Hm' He' Hi' Hn D1 D2 ND FC OK HT NC SK K1 SC UN SN RO. assert (HnN : (n <= N)%nat) by lia.
  pose proof RO as (PM & ST & STT & RR).
  assert (FT : feature_count train' = feature_count train) by (unfold feature_count; rewrite ST; reflexivity).
  assert (D2' : dataset train' N) by (unfold dataset; rewrite ST; exact D2).
  assert (ND' : ndim test = ndim train') by (unfold ndim in *; rewrite ST; exact ND).
  assert (SN' : sound_noise (gp_noise g) train' N M n).
  { destruct SN as [P|[P D]]; [left; auto|right; split; [auto|]]. intros i j Hi1 Hj1 Hij.
    destruct PM as [PB PI]. destruct (D (p i) (p j) (PB i Hi1) (PB j Hj1)) as (f & Hf & NE).
    - intros E. apply Hij. apply PI; auto.
    - exists f. rewrite FT. split; [auto|]. rewrite (proj1 (RR i Hi1) f Hf), (proj1 (RR j Hj1) f Hf). exact NE. }
  destruct (regress_any_nbr en method kw w g K cur kkw test train targets N M n ex) as (mean & var & E & _ & _ & NS & V); auto.
  { apply uniform_fits; auto. }
  destruct (regress_any_nbr en' method' kw' w' g K cur kkw test train' targets' N M n ex) as (mean' & var' & E' & _ & _ & _ & V'); auto;
    rewrite ?FT; auto; [congruence|apply uniform_fits; auto|].
  rewrite FT in V'.
  exists mean, var, mean', var'. split; [exact E|]. split; [exact E'|]. intros x Hx NT.
  set (k := lk_cov gamma kv K (feature_count train) cur kkw) in *.
  destruct (V x Hx) as (NRx & Mx & (wv & W & Vx) & _). destruct (V' x Hx) as (NRy & My & (wv' & W' & Vy) & _).
  assert (QE : forall j, (j < n)%nat -> nbr knn hnsw w test x j = p (nbr knn hnsw w' test x j)).
  { apply (nearest_unique test train N x n _ (fun j => p (nbr knn hnsw w' test x j)) NT NRx).
    apply (reordered_nearest test train train' targets targets' N ex p); auto. }
  assert (QB : forall j, (j < n)%nat -> (nbr knn hnsw w' test x j < N)%nat) by (intros j Hj; apply NRy; auto).
  assert (PK : pointwise_kernel (feature_count train) (lk_call gamma kv K cur kkw) k) by (apply lk_pointwise; auto).
  assert (FE : forall j f, (j < n)%nat -> (f < feature_count train)%nat ->
     feature train (nbr knn hnsw w test x j) f = feature train' (nbr knn hnsw w' test x j) f).
  { intros j f Hj Hf. rewrite QE by auto. symmetry. apply (proj1 (RR _ (QB j Hj))). auto. }
  assert (KE : forall j, (j < n)%nat -> kcov k test train x (nbr knn hnsw w test x j) = kcov k test train' x (nbr knn hnsw w' test x j)).
  { intros j Hj. unfold kcov. apply (proj1 PK). intros f Hf. rewrite FE by auto. reflexivity. }
  assert (AE : forall i j, (i < n)%nat -> (j < n)%nat -> nbr_matrix k (gp_noise g) train (nbr knn hnsw w test) x i j =
                            nbr_matrix k (gp_noise g) train' (nbr knn hnsw w' test) x i j).
  { intros i j Hi1 Hj1. unfold nbr_matrix, plus_diag. f_equal. unfold kcov. apply (proj1 PK). intros f Hf. rewrite !FE by auto. reflexivity. }
  split.
  - rewrite Vx, Vy. f_equal. f_equal.
    refine (kriging_det n _ _ _ _ _ _ _ _ (NS x Hx) AE KE KE _ _); [exists wv|exists wv']; split; auto.
  - intros e Hie. refine (kriging_det n _ _ _ _ _ _ _ _ (NS x Hx) AE KE _ (Mx e Hie) (My e Hie)).
    intros j Hj. cbn beta. rewrite QE by auto. symmetry. apply (proj2 (RR _ (QB j Hj))). auto.
Qed.

(** Interpolation of the training data. *)
Lemma regress_any_interpolates en method kw w g K cur kkw test train targets N M n ex :
  lower method = "exact"%string -> euclidean_kw kw -> nn_init en (rows_of train) n method kw = Ok w -> (0 < n <= N /\ 0 < M)%nat ->
  dataset test M -> dataset train N -> ndim test = ndim train -> feature_count test = feature_count train ->
  lk_ok K (feature_count train) cur kkw -> shape targets = N :: ex -> no_coincidence ex [n] ->
  shape (gp_Kout g) = [] -> at_ (gp_Kout g) [] = 1 -> 0 <= gp_var_scale g ->
  gp_noise g = NullNoise \/ gp_noise g = HomoscedasticNoise 0 -> distinct_rows train N (fun i => i) ->
  exists mean var,
    regress_any ls knn hnsw (Univariate (mkMm g (lk_call gamma kv K cur kkw))) test train w targets = Ok (mean, var) /\
    forall x a, (x < M)%nat -> (a < N)%nat -> same_row test train x a ->
      at_ var [x] = 0 /\ forall e, inb ex e -> at_ mean (x :: e) = at_ targets (a :: e).
Proof.
  intros Hm He Hi Hn D1 D2 ND FC OK HT NC SK K1 SC NU DI. assert (HnN : (n <= N)%nat) by lia.
  assert (NZ : forall x i, noise_at (gp_noise g) None x i = 0) by (destruct NU as [-> | ->]; reflexivity).
  destruct (regress_any_nbr en method kw w g K cur kkw test train targets N M n ex) as (mean & var & E & _ & _ & NS & V); auto; try lia.
  { destruct NU as [-> | ->]; exact I. }
  { right. split; [intros; rewrite NZ; lra|auto]. }
  exists mean, var. split; [exact E|]. intros x a Hx Ha SR.
  set (k := lk_cov gamma kv K (feature_count train) cur kkw) in *.
  destruct (V x Hx) as (NRx & Mx & (wv & W & Vx) & _).
  destruct (nearest_self test train N x n _ a NRx) as (j & Hj & QJ); auto; try lia.
  assert (PK : pointwise_kernel (feature_count train) (lk_call gamma kv K cur kkw) k) by (apply lk_pointwise; auto).
  assert (COL : forall i, (i < n)%nat -> kcov k test train x (nbr knn hnsw w test x i) =
     nbr_matrix k (gp_noise g) train (nbr knn hnsw w test) x i j).
  { intros i Hi'. unfold nbr_matrix, plus_diag. rewrite NZ, QJ.
    rewrite (lk_cov_sym gamma kv K (feature_count train) cur kkw train). fold k.
    transitivity (kcov k train train a (nbr knn hnsw w test x i)).
    - unfold kcov. apply (proj1 PK). intros f Hf. rewrite (SR f Hf). reflexivity.
    - destruct (Nat.eqb i j); ring. }
  assert (UNIT : forall wv, solves n (nbr_matrix k (gp_noise g) train (nbr knn hnsw w test) x) wv
       (fun j => kcov k test train x (nbr knn hnsw w test x j)) -> forall i, (i < n)%nat -> wv i = delta i j).
  { apply solves_unit; auto. }
  split.
  - rewrite Vx. unfold dot. rewrite (rsum_ext n _ (fun i => delta i j * kcov k test train x (nbr knn hnsw w test x i))).
    + rewrite rsum_delta by auto. rewrite QJ.
      replace (kcov k test train x a) with 1; [ring|]. symmetry.
      transitivity (kcov k train train a a).
      * unfold kcov. apply (proj1 PK). intros f Hf. rewrite (SR f Hf). reflexivity.
      * apply lk_cov_0; auto.
    + intros i Hi'. rewrite (UNIT wv W i Hi'). reflexivity.
  - intros e Hie. destruct (Mx e Hie) as (wm & Wm & ->). unfold dot.
    rewrite (rsum_ext n _ (fun i => delta i j * at_ targets (nbr knn hnsw w test x i :: e))).
    + rewrite rsum_delta by auto. rewrite QJ. reflexivity.
    + intros i Hi'. rewrite (UNIT wm Wm i Hi'). reflexivity.
Qed.
End Any.
