(** Property theorems C103 (dependence of predictions on the test features). *)
From Coq Require Import Lia Lra.
From Verif Require Import Base BaseFacts NdModel NdFacts RSum HyperModel NamedModel NamedSpec LinAlgModel LinAlgSpec LinAlgFacts Gauss
  GPModel NoiseModel MuyGPSModel GPSpec GPTheorems WellPosedProofs TensorModel TensorSpec TensorProofs KernelModel KernelSpec KernelCases
  NeighborsModel NeighborsSpec NeighborsProofs FlowModel FlowSpec FlowProofs PointwiseSpec LibSpec LibProofs
  MultiModel DriverModel WorkModel WorkSpec WorkProofs WorkLemmas WorkProps BestSpec LocalSpec LocalProps FarSpec FarProofs FarProps SmoothSpec SmoothProofs.
Local Open Scope R_scope.
Local Open Scope string_scope.

(** * C103 *)
(** Over test rows with the same nearest training rows, predictions are Lipschitz in the features: one constant for all neighbourhoods, test
    sets, noise levels of at least [nu] and responses of size at most [Y]. *)
Theorem C103_lipschitz : forall gamma kv ls, exact_solver ls -> forall knn hnsw dist, sklearn_ok knn dist ->
  forall K cur train N n nu Y sc, dataset train N -> lk_ok K (feature_count train) cur [] -> (0 < n <= N)%nat -> 0 < nu -> 0 <= Y -> 0 <= sc ->
  exists C, 0 < C /\ forall en method kw w g test test' targets M M' ex,
  lower method = "exact" -> euclidean_kw kw -> nn_init en (rows_of train) n method kw = Ok w -> (0 < M /\ 0 < M')%nat ->
  dataset test M -> ndim test = ndim train -> feature_count test = feature_count train ->
  dataset test' M' -> ndim test' = ndim train -> feature_count test' = feature_count train -> shape targets = N :: ex -> no_coincidence ex [n] ->
  (forall a e, (a < N)%nat -> inb ex e -> Rabs (at_ targets (a :: e)) <= Y) ->
  shape (gp_Kout g) = [] -> at_ (gp_Kout g) [] = 1 -> gp_var_scale g = sc -> uniform_noise (gp_noise g) ->
  robust (gp_noise g) nu train N 1 1 ->
  exists mean var mean' var',
    regress_any ls knn hnsw (Univariate (lib_model gamma kv g K cur)) test train w targets = Ok (mean, var) /\
    regress_any ls knn hnsw (Univariate (lib_model gamma kv g K cur)) test' train w targets = Ok (mean', var') /\
    forall x x' p, (x < M)%nat -> (x' < M')%nat -> strictly_nearest test train N x n p -> strictly_nearest test' train N x' n p ->
      Rabs (at_ var' [x'] - at_ var [x]) <= C * point_dist test test' (feature_count train) x x' /\
      forall e, inb ex e -> Rabs (at_ mean' (x' :: e) - at_ mean (x :: e)) <= C * point_dist test test' (feature_count train) x x'.
Proof. exact smooth_any. Qed.
Print Assumptions C103_lipschitz.

(** With every training row as a neighbour there is one neighbourhood: predictions are Lipschitz on the whole feature space. *)
Theorem C103_all_neighbours : forall gamma kv ls, exact_solver ls -> forall knn hnsw dist, sklearn_ok knn dist ->
  forall K cur train N nu Y sc, dataset train N -> (0 < N)%nat -> lk_ok K (feature_count train) cur [] -> 0 < nu -> 0 <= Y -> 0 <= sc ->
  exists C, 0 < C /\ forall en method kw w g test test' targets M M' ex,
  lower method = "exact" -> euclidean_kw kw -> nn_init en (rows_of train) N method kw = Ok w -> (0 < M /\ 0 < M')%nat ->
  dataset test M -> ndim test = ndim train -> feature_count test = feature_count train ->
  dataset test' M' -> ndim test' = ndim train -> feature_count test' = feature_count train -> shape targets = N :: ex -> no_coincidence ex [N] ->
  (forall a e, (a < N)%nat -> inb ex e -> Rabs (at_ targets (a :: e)) <= Y) ->
  shape (gp_Kout g) = [] -> at_ (gp_Kout g) [] = 1 -> gp_var_scale g = sc -> uniform_noise (gp_noise g) ->
  robust (gp_noise g) nu train N 1 1 ->
  exists mean var mean' var',
    regress_any ls knn hnsw (Univariate (lib_model gamma kv g K cur)) test train w targets = Ok (mean, var) /\
    regress_any ls knn hnsw (Univariate (lib_model gamma kv g K cur)) test' train w targets = Ok (mean', var') /\
    forall x x', (x < M)%nat -> (x' < M')%nat ->
      Rabs (at_ var' [x'] - at_ var [x]) <= C * point_dist test test' (feature_count train) x x' /\
      forall e, inb ex e -> Rabs (at_ mean' (x' :: e) - at_ mean (x :: e)) <= C * point_dist test test' (feature_count train) x x'.
Proof.
  intros gamma kv ls EX knn hnsw dist Hsk K cur train N nu Y sc D2 NP OK NU Y0 SC0.
  destruct (smooth_any gamma kv ls EX knn hnsw dist Hsk K cur train N N nu Y sc D2 OK (conj NP (Nat.le_refl N)) NU Y0 SC0) as (C & C0 & H).
  exists C. split; [exact C0|]. intros en method kw w g test test' targets M M' ex Hm He Hi MP D1 ND FC D1' ND' FC' HT NC YB SK K1 GS UN RB.
  destruct (H en method kw w g test test' targets M M' ex Hm He Hi MP D1 ND FC D1' ND' FC' HT NC YB SK K1 GS UN RB)
    as (mean & var & mean' & var' & E & E' & V).
  exists mean, var, mean', var'. split; [exact E|]. split; [exact E'|]. intros x x' Hx Hx'.
  assert (ALL : forall X y, strictly_nearest X train N y N (fun j => j)).
  { intros X y. split; [auto|]. split; [auto|]. intros a Ha NA. exfalso. apply (NA a Ha). reflexivity. }
  apply (V x x' (fun j => j) Hx Hx'); apply ALL.
Qed.
Print Assumptions C103_all_neighbours.

(** With fewer neighbours predictions are continuous at every test row whose neighbourhood is not a matter of ties. *)
Theorem C103_continuous : forall gamma kv ls, exact_solver ls -> forall knn hnsw dist, sklearn_ok knn dist ->
  forall en method kw w g K cur test train targets N M n ex nu Y,
  lower method = "exact" -> euclidean_kw kw -> nn_init en (rows_of train) n method kw = Ok w -> (0 < n <= N /\ 0 < M)%nat ->
  dataset test M -> dataset train N -> ndim test = ndim train -> feature_count test = feature_count train ->
  lk_ok K (feature_count train) cur [] -> shape targets = N :: ex -> no_coincidence ex [n] ->
  (forall a e, (a < N)%nat -> inb ex e -> Rabs (at_ targets (a :: e)) <= Y) -> 0 <= Y ->
  shape (gp_Kout g) = [] -> at_ (gp_Kout g) [] = 1 -> 0 <= gp_var_scale g -> uniform_noise (gp_noise g) -> 0 < nu ->
  robust (gp_noise g) nu train N 1 1 ->
  exists mean var,
    regress_any ls knn hnsw (Univariate (lib_model gamma kv g K cur)) test train w targets = Ok (mean, var) /\
    forall x p eps, (x < M)%nat -> strictly_nearest test train N x n p -> 0 < eps ->
    exists d, 0 < d /\ forall test' M', (0 < M')%nat -> dataset test' M' -> ndim test' = ndim train -> feature_count test' = feature_count train ->
      exists mean' var', 
        regress_any ls knn hnsw (Univariate (lib_model gamma kv g K cur)) test' train w targets = Ok (mean', var') /\
        forall x', (x' < M')%nat -> point_dist test test' (feature_count train) x x' < d ->
          Rabs (at_ var' [x'] - at_ var [x]) <= eps /\ forall e, inb ex e -> Rabs (at_ mean' (x' :: e) - at_ mean (x :: e)) <= eps.
Proof.
  intros gamma kv ls EX knn hnsw dist Hsk en method kw w g K cur test train targets N M n ex nu Y
    Hm He Hi Hn D1 D2 ND FC OK HT NC YB Y0 SK K1 SC UN NU RB.
  destruct (smooth_any gamma kv ls EX knn hnsw dist Hsk K cur train N n nu Y (gp_var_scale g) D2 OK (proj1 Hn) NU Y0 SC) as (C & C0 & H).
  destruct (H en method kw w g test test targets M M ex Hm He Hi (conj (proj2 Hn) (proj2 Hn)) D1 ND FC D1 ND FC HT NC YB SK K1 eq_refl UN RB)
    as (mean & var & _ & _ & E & _).
  exists mean, var. split; [exact E|]. intros x p eps Hx SP EPS.
  destruct (strictly_nearest_open test train N x n p SP) as (d & D0 & OPEN).
  assert (EC : 0 < eps / C) by (apply Rmult_lt_0_compat; [exact EPS|apply Rinv_0_lt_compat; exact C0]).
  exists (Rmin d (eps / C)). split; [apply Rmin_glb_lt; auto|]. intros test' M' MP' D1' ND' FC'.
  destruct (H en method kw w g test test' targets M M' ex Hm He Hi (conj (proj2 Hn) MP') D1 ND FC D1' ND' FC' HT NC YB SK K1 eq_refl UN RB)
    as (mean0 & var0 & mean' & var' & E0 & E' & V).
  rewrite E in E0. injection E0 as <- <-. exists mean', var'. split; [exact E'|]. intros x' Hx' CL.
  assert (C1 : point_dist test test' (feature_count train) x x' < d) by (eapply Rlt_le_trans; [exact CL|apply Rmin_l]).
  assert (C2 : C * point_dist test test' (feature_count train) x x' <= eps).
  { apply Rle_trans with (C * (eps / C)); [|right; field; lra]. apply Rmult_le_compat_l; [lra|].
    left. eapply Rlt_le_trans; [exact CL|apply Rmin_r]. }
  destruct (V x x' p Hx Hx' SP (OPEN test' x' C1)) as [V1 V2]. split; [lra|]. intros e Hie. specialize (V2 e Hie). lra.
Qed.
Print Assumptions C103_continuous.

(** Not everywhere: where the neighbourhood changes the prediction jumps.  Training rows 0 and 1 with responses 0 and 1, one neighbour, no
    noise, Gaussian kernel: however close two test rows on either side of 1/2 are, their means differ by more than 1/2. *)
Definition ex103_train : nd R := mkNd [2%nat] (fun idx => match idx with [O] => 0 | _ => 1 end).
Definition ex103_test (e : R) : nd R := mkNd [2%nat] (fun idx => match idx with [O] => 1/2 - e | _ => 1/2 + e end).
Theorem C103_jump_refuted : forall gamma kv ls, exact_solver ls -> forall knn hnsw dist, sklearn_ok knn dist ->
  forall w, nn_init false (rows_of ex103_train) 1 "exact" [] = Ok w ->
  forall d, 0 < d -> exists e, point_dist (ex103_test e) (ex103_test e) 1 0 1 <= d /\ exists mean var,
    regress_any ls knn hnsw (Univariate (lib_model gamma kv ex80_gp ex80_K (fun _ => 1))) (ex103_test e) ex103_train w ex103_train = Ok (mean, var) /\
    at_ mean [0%nat] = 0 /\ 1 / 2 < at_ mean [1%nat].
Proof.
  intros gamma kv ls EX knn hnsw dist Hsk w Hi d D0. set (e := Rmin (d / 2) (1 / 4)).
  assert (E0 : 0 < e) by (apply Rmin_glb_lt; lra). assert (E1 : e <= 1 / 4) by apply Rmin_r. assert (E2 : e <= d / 2) by apply Rmin_l.
  exists e. split.
  { unfold point_dist, euclid, sqdist, feature, ex103_test. cbn [shape at_ rsum].
    replace (0 + (1 / 2 - e - (1 / 2 + e)) ^ 2) with ((2 * e) ^ 2) by ring. rewrite sqrt_pow2; lra. }
  assert (OK : lk_ok ex80_K (feature_count ex103_train) (fun _ => 1) []).
  { split; [reflexivity|]. split; [apply Nat.lt_0_1|]. split; [intros f _; cbn; lra|reflexivity]. }
  assert (DR : distinct_rows ex103_train 2 (fun i => i)).
  { intros i j Hi0 Hj0 Hij. exists O. split; [apply Nat.lt_0_1|]. unfold feature, ex103_train. cbn [shape at_].
    destruct i as [|[|i]]; [| |lia]; (destruct j as [|[|j]]; [| |lia]); try lia; lra. }
  destruct (predict_by_set gamma kv ls EX knn hnsw dist Hsk false "exact" [] w ex80_gp ex80_K (fun _ => 1) (ex103_test e) ex103_train ex103_train 2 2 1 [])
    as (mean & var & E & V); auto.
  { unfold euclidean_kw. cbn. auto. } { left; reflexivity. } { left; reflexivity. } { apply no_coincidence_nil. } { cbn; lra. } { left; reflexivity. }
  { right. split; [intros; cbn; lra|exact DR]. }
  exists mean, var. split; [exact E|].
  assert (S0 : strictly_nearest (ex103_test e) ex103_train 2 0 1 (fun _ => O)).
  { split; [intros; lia|]. split; [intros; lia|]. intros a Ha NA j Hj. destruct a as [|[|a]]; [exfalso; apply (NA O); auto| |lia].
    unfold row_dist, sqdist, feature, feature_count, ex103_train, ex103_test. cbn [shape at_ rsum]. nra. }
  assert (S1 : strictly_nearest (ex103_test e) ex103_train 2 1 1 (fun _ => 1%nat)).
  { split; [intros; lia|]. split; [intros; lia|]. intros a Ha NA j Hj. destruct a as [|[|a]]; [|exfalso; apply (NA O); auto|lia].
    unfold row_dist, sqdist, feature, feature_count, ex103_train, ex103_test. cbn [shape at_ rsum]. nra. }
  destruct (V O _ ltac:(lia) S0) as [M0 _]. destruct (V 1%nat _ ltac:(lia) S1) as [M1 _]. split.
  - destruct (M0 [] inb_nil) as (u & U & ->). unfold dot, ex103_train. cbn [rsum at_]. ring.
  - destruct (M1 [] inb_nil) as (u & U & ->). specialize (U O Nat.lt_0_1).
    unfold dot. cbn [rsum]. replace (at_ ex103_train [1%nat]) with 1 by reflexivity. cbn [rsum] in U.
    unfold nbr_matrix, plus_diag in U. cbn [Nat.eqb] in U. unfold kcov in U at 1.
    rewrite (lk_cov_0 gamma kv ex80_K (feature_count ex103_train) (fun _ => 1) [] (fun _ => feature ex103_train 1) 0 OK) in U.
    replace (noise_at (gp_noise ex80_gp) None 0 0) with 0 in U by reflexivity.
    assert (UV : u O = exp (- ((e - 1/2) ^ 2) / 2)).
    { transitivity (kcov (lk_cov gamma kv ex80_K (feature_count ex103_train) (fun _ => 1) []) (ex103_test e) ex103_train 1 1); [rewrite <- U; ring|].
      unfold kcov, ex80_K. cbn [lk_cov]. unfold rbf_cov, scaled_sqdist, feature, feature_count, ex103_train, ex103_test. cbn [shape at_ rsum].
      f_equal. unfold scale_of, kw_or. cbn. field. }
    rewrite UV. pose proof (exp_ineq1_le (- ((e - 1/2) ^ 2) / 2)) as X.
    assert (SQ : (e - 1 / 2) ^ 2 <= 1 / 4) by (cbn [pow]; nra). lra.
Qed.
Print Assumptions C103_jump_refuted.

(** Hypotheses: the data of C80_sat without noise (distinct rows), its first test row and the two nearest training rows. *)
Example C103_sat : uniform_noise (gp_noise ex80_gp) /\ robust (gp_noise ex80_gp) 1 ex80_train 3 1 1 /\
  strictly_nearest ex80_test ex80_train 3 1 2 (fun j => j) /\ strictly_nearest ex80_test ex80_train 3 1 2 (fun j => 1 - j)%nat /\
  exists w, nn_init false (rows_of ex103_train) 1 "exact" [] = Ok w.
Proof.
  destruct C80_sat as (knn & dist & w & w' & H). decompose [and] H. split; [left; reflexivity|].
  split. { right. split; [intros x i _ _; cbn; lra|assumption]. }
  assert (S : forall p, (forall j, (j < 2)%nat -> (p j < 2)%nat) -> (forall i j, (i < 2)%nat -> (j < 2)%nat -> p i = p j -> i = j) ->
     (exists j, (j < 2)%nat /\ p j = O) -> (exists j, (j < 2)%nat /\ p j = 1%nat) -> strictly_nearest ex80_test ex80_train 3 1 2 p).
  { intros p B I (a & La & Ea) (b & Lb & Eb). split; [intros j Hj; specialize (B j Hj); lia|]. split; [exact I|].
    intros c Hc NC j Hj. specialize (B j Hj). assert (c = 2%nat). { pose proof (NC a La). pose proof (NC b Lb). lia. } subst c.
    unfold row_dist, sqdist, feature, feature_count, ex80_train, ex80_test. cbn [shape at_ rsum].
    destruct (p j) as [|[|l]]; [| |lia]; lra. }
  split; [apply S; auto; [exists O|exists 1%nat]; lia|]. split; [apply S; [intros; lia|intros; lia|exists 1%nat; lia|exists O; lia]|].
  eexists. reflexivity.
Qed.
