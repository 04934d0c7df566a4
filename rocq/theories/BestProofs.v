(** Proofs about optimal linear prediction. *)
From Coq Require Import Lia Lra.
From Verif Require Import Base BaseFacts NdModel NdFacts RSum HyperModel NamedModel NamedSpec LinAlgModel LinAlgSpec LinAlgFacts
  GPModel NoiseModel MuyGPSModel GPSpec WellPosedProofs TensorModel TensorSpec KernelModel KernelSpec
  NeighborsModel NeighborsSpec NeighborsProofs FlowModel FlowSpec FlowProofs PointwiseSpec LibSpec LibProofs
  MultiModel DriverModel WorkModel WorkSpec WorkProofs WorkLemmas BestSpec.
Local Open Scope R_scope.

(** ** Completing the square *)
Lemma rsum2_ext n m (f g : nat -> nat -> R) : (forall i j, (i < n)%nat -> (j < m)%nat -> f i j = g i j) ->
  rsum n (fun i => rsum m (f i)) = rsum n (fun i => rsum m (g i)).
Proof. intros H. apply rsum_ext. intros i Hi. apply rsum_ext. auto. Qed.
Lemma quad_diff n A u w k : symmetric n A -> solves n A u k ->
  quad n A (fun i => w i - u i) = quad n A w - 2 * dot n w k + dot n u k.
Proof.
  intros SY SO. rewrite <- (quad_solves n A u k SO).
  assert (E1 : rsum n (fun i => rsum n (fun j => w i * A i j * u j)) = dot n w k).
  { unfold dot. apply rsum_ext. intros i Hi. rewrite <- (SO i Hi), <- rsum_scal. apply rsum_ext. intros; ring. }
  assert (E2 : rsum n (fun i => rsum n (fun j => u i * A i j * w j)) = dot n w k).
  { rewrite <- E1, rsum_swap. apply rsum2_ext. intros i j Hi Hj. rewrite (SY j i) by auto. ring. }
  assert (E : quad n A (fun i => w i - u i) = rsum n (fun i => rsum n (fun j => w i * A i j * w j)
      - rsum n (fun j => w i * A i j * u j) - rsum n (fun j => u i * A i j * w j) + rsum n (fun j => u i * A i j * u j))).
  { unfold quad. apply rsum_ext. intros i Hi. rewrite <- !rsum_minus, <- rsum_plus. apply rsum_ext. intros; ring. }
  rewrite E, rsum_plus, !rsum_minus, E1, E2. unfold quad. ring.
Qed.

Lemma classic_zero n (v : nat -> R) : (forall i, (i < n)%nat -> v i = 0) \/ exists i, (i < n)%nat /\ v i <> 0.
Proof.
  induction n as [|n [IH|(i & Hi & N)]]; [left; intros; lia| |right; exists i; split; [lia|exact N]].
  destruct (Req_dec (v n) 0) as [Z|N]; [left|right; exists n; split; [lia|exact N]].
  intros i Hi. destruct (Nat.eq_dec i n) as [->|]; [exact Z|apply IH; lia].
Qed.

Lemma list_in_dec n (q : nat -> nat) a : (exists i, (i < n)%nat /\ q i = a) \/ forall i, (i < n)%nat -> q i <> a.
Proof.
  induction n as [|n [(i & Hi & E)|IH]]; [right; intros; lia|left; exists i; split; [lia|exact E]|].
  destruct (Nat.eq_dec (q n) a) as [E|N]; [left; exists n; split; [lia|exact E]|right].
  intros i Hi. destruct (Nat.eq_dec i n) as [->|]; [exact N|apply IH; lia].
Qed.

(** ** Second moments *)
Lemma expect_plus S pi X Y : expect S pi (fun s => X s + Y s) = expect S pi X + expect S pi Y.
Proof. unfold expect. rewrite <- rsum_plus. apply rsum_ext. intros; ring. Qed.
Lemma expect_scal S pi c X : expect S pi (fun s => c * X s) = c * expect S pi X.
Proof. unfold expect. rewrite <- rsum_scal. apply rsum_ext. intros; ring. Qed.
Lemma expect_rsum S pi n (X : nat -> nat -> R) : expect S pi (fun s => rsum n (fun j => X j s)) = rsum n (fun j => expect S pi (X j)).
Proof.
  unfold expect. rewrite rsum_swap. apply rsum_ext. intros s Hs. rewrite <- rsum_scal. reflexivity.
Qed.
Lemma expect_ext S pi X Y : (forall s, (s < S)%nat -> X s = Y s) -> expect S pi X = expect S pi Y.
Proof. intros H. unfold expect. apply rsum_ext. intros s Hs. rewrite H; auto. Qed.

Lemma mse_moments S pi f y k m sc test train x n q w : model_moments S pi f y k m sc test train x n q ->
  mean_squared_error S pi f y n w = sc * error_variance k m test train x n q w.
Proof.
  intros [_ M1 M2 M3]. unfold mean_squared_error, error_variance.
  rewrite (expect_ext S pi _ (fun s => f s * f s + ((-2) * rsum n (fun j => w j * (f s * y j s)) +
     rsum n (fun i => rsum n (fun j => (w i * w j) * (y i s * y j s)))))).
  - rewrite expect_plus, expect_plus, M1, expect_scal, expect_rsum.
    rewrite (rsum_ext n _ (fun j => sc * (w j * kcov k test train x (q j)))).
    2:{ intros j Hj. rewrite expect_scal, M2 by auto. ring. }
    rewrite rsum_scal. rewrite expect_rsum.
    rewrite (rsum_ext n (fun j => expect S pi (fun s => rsum n (fun j0 => w j * w j0 * (y j s * y j0 s))))
               (fun i => sc * rsum n (fun j => w i * w j * obs_cov k m train x q i j))).
    2:{ intros i Hi. rewrite expect_rsum, <- rsum_scal. apply rsum_ext. intros j Hj. rewrite expect_scal, M3 by auto. ring. }
    rewrite rsum_scal. ring.
  - intros s Hs. set (t := rsum n (fun j => w j * y j s)).
    assert (E1 : rsum n (fun j => w j * (f s * y j s)) = f s * t).
    { unfold t. rewrite <- rsum_scal. apply rsum_ext. intros; ring. }
    assert (E2 : rsum n (fun i => rsum n (fun j => w i * w j * (y i s * y j s))) = t * t).
    { unfold t at 1. rewrite <- rsum_scal_r. apply rsum_ext. intros i Hi. unfold t. rewrite <- rsum_scal. apply rsum_ext. intros; ring. }
    rewrite E1, E2. ring.
Qed.

Section Best.
Variables (gamma : R -> R) (kv : R -> R -> R).

Lemma nbr_pd K cur kw m X t w q x : lk_ok K (feature_count X) cur kw -> well_posed m X t w q -> (x < t)%nat ->
  pd w (nbr_matrix (lk_cov gamma kv K (feature_count X) cur kw) m X q x).
Proof.
  intros OK WP Hx. unfold nbr_matrix. destruct (WP x Hx) as [P|[P D]].
  - apply plus_diag_pd; auto. apply (lk_cov_psd gamma kv K (feature_count X) cur kw (fun i f => feature X (q x i) f) w OK).
  - apply plus_diag_pd'; auto. apply (lk_cov_pd gamma kv K (feature_count X) cur kw (fun i f => feature X (q x i) f) w OK). auto.
Qed.
Lemma nbr_sym K F cur kw m X w q x : symmetric w (nbr_matrix (lk_cov gamma kv K F cur kw) m X q x).
Proof.
  intros i j Hi Hj. unfold nbr_matrix, plus_diag. rewrite (lk_cov_sym gamma kv K F cur kw X (q x i) (q x j)).
  rewrite (Nat.eqb_sym j i). destruct (Nat.eqb_spec i j) as [->|]; reflexivity.
Qed.
Lemma self_cov K F cur kw X x : lk_ok K F cur kw -> kcov (lk_cov gamma kv K F cur kw) X X x x = 1.
Proof. intros OK. apply (lk_cov_0 gamma kv K F cur kw (feature X) x OK). Qed.

Lemma error_quad K F cur kw m test train x n q w : lk_ok K F cur kw ->
  error_variance (lk_cov gamma kv K F cur kw) m test train x n (q x) w =
  1 - 2 * dot n w (fun j => kcov (lk_cov gamma kv K F cur kw) test train x (q x j)) +
  quad n (nbr_matrix (lk_cov gamma kv K F cur kw) m train q x) w.
Proof.
  intros OK. unfold error_variance. rewrite self_cov by auto. f_equal. unfold quad. apply rsum2_ext. intros i j Hi Hj.
  unfold obs_cov, nbr_matrix, plus_diag. ring.
Qed.
Lemma error_optimal K cur kw m test train M x n q u : lk_ok K (feature_count train) cur kw ->
  well_posed m train M n q -> (x < M)%nat ->
  let k := lk_cov gamma kv K (feature_count train) cur kw in
  solves n (nbr_matrix k m train q x) u (fun j => kcov k test train x (q x j)) ->
  error_variance k m test train x n (q x) u = 1 - dot n u (fun j => kcov k test train x (q x j)) /\
  forall w, error_variance k m test train x n (q x) u <= error_variance k m test train x n (q x) w /\
    (error_variance k m test train x n (q x) w = error_variance k m test train x n (q x) u -> forall j, (j < n)%nat -> w j = u j).
Proof.
  intros OK WP Hx k SO. pose proof (nbr_sym K (feature_count train) cur kw m train n q x) as SY.
  assert (E : error_variance k m test train x n (q x) u = 1 - dot n u (fun j => kcov k test train x (q x j))).
  { unfold k. rewrite error_quad by auto. fold k. rewrite (quad_solves _ _ _ _ SO). ring. }
  split; [exact E|]. intros w.
  pose proof (quad_diff n _ u w _ SY SO) as Q. fold k in Q.
  assert (W : error_variance k m test train x n (q x) w = error_variance k m test train x n (q x) u +
     quad n (nbr_matrix k m train q x) (fun i => w i - u i)).
  { rewrite E, Q. unfold k. rewrite error_quad by auto. fold k. ring. }
  pose proof (nbr_pd K cur kw m train M n q x OK WP Hx) as PD. fold k in PD.
  split.
  - rewrite W. assert (0 <= quad n (nbr_matrix k m train q x) (fun i => w i - u i)); [|lra].
    destruct (classic_zero n (fun i => w i - u i)) as [Z|NZ]; [|left; apply PD; exact NZ].
    right. symmetry. unfold quad. rewrite (rsum_ext n _ (fun _ => 0)); [apply rsum_0|]. intros i Hi.
    rewrite (rsum_ext n _ (fun _ => 0)); [apply rsum_0|]. intros j Hj. rewrite (Z i Hi). ring.
  - intros Eq j Hj. rewrite W in Eq. destruct (Req_dec (w j - u j) 0) as [Z|NZ]; [lra|]. exfalso.
    assert (0 < quad n (nbr_matrix k m train q x) (fun i => w i - u i)); [|lra]. apply PD. exists j. auto.
Qed.

(** ** More neighbours *)
(** Weights on the larger neighbourhood: zero on the new rows. *)
Definition padded (n : nat) (p : nat -> nat) (w : nat -> R) (j : nat) : R := rsum n (fun i => delta (p i) j * w i).
Lemma padded_sum n n' p w (v : nat -> R) : (forall i, (i < n)%nat -> (p i < n')%nat) ->
  rsum n' (fun j => padded n p w j * v j) = rsum n (fun i => w i * v (p i)).
Proof.
  intros B. unfold padded. rewrite (rsum_ext n' _ (fun j => rsum n (fun i => delta (p i) j * (w i * v j)))).
  2:{ intros j Hj. rewrite <- rsum_scal_r. apply rsum_ext. intros; ring. }
  rewrite rsum_swap. apply rsum_ext. intros i Hi. apply (rsum_delta_l n' (p i) (fun j => w i * v j)). auto.
Qed.
Lemma padded_quad n n' p w (A : nat -> nat -> R) : (forall i, (i < n)%nat -> (p i < n')%nat) ->
  rsum n' (fun i => rsum n' (fun j => padded n p w i * padded n p w j * A i j)) =
  rsum n (fun i => rsum n (fun j => w i * w j * A (p i) (p j))).
Proof.
  intros B. rewrite (rsum_ext n' _ (fun i => padded n p w i * rsum n (fun j => w j * A i (p j)))).
  2:{ intros i Hi. rewrite <- (padded_sum n n' p w (A i) B), <- rsum_scal. apply rsum_ext. intros; ring. }
  rewrite (padded_sum n n' p w (fun i => rsum n (fun j => w j * A i (p j))) B). apply rsum_ext. intros i Hi.
  rewrite <- rsum_scal. apply rsum_ext. intros; ring.
Qed.
Lemma error_padded k m test train x n q n' q' w : uniform_noise m -> among n q n' q' ->
  exists w', error_variance k m test train x n' q' w' = error_variance k m test train x n q w.
Proof.
  intros U (p & B & I). exists (padded n p w). unfold error_variance.
  assert (B' : forall i, (i < n)%nat -> (p i < n')%nat) by (intros i Hi; apply B; auto).
  rewrite (padded_sum n n' p w (fun j => kcov k test train x (q' j)) B'), (padded_quad n n' p w (obs_cov k m train x q') B').
  f_equal.
  - f_equal. f_equal. apply rsum_ext. intros i Hi. rewrite (proj2 (B i Hi)). reflexivity.
  - apply rsum2_ext. intros i j Hi Hj. f_equal. unfold obs_cov. rewrite (proj2 (B i Hi)), (proj2 (B j Hj)). f_equal.
    destruct (Nat.eqb_spec i j) as [->|N].
    + rewrite Nat.eqb_refl. destruct U as [->|[v ->]]; reflexivity.
    + destruct (Nat.eqb_spec (p i) (p j)) as [E|_]; [|reflexivity]. exfalso. auto.
Qed.

Lemma nearest_prefix test train N x n n' q : (n <= n')%nat -> nearest_rows test train N x n' q -> nearest_rows test train N x n q.
Proof.
  intros L (B & I & O & C). split; [intros; apply B; lia|]. split; [intros; apply I; auto; lia|].
  split; [intros; apply O; auto; lia|]. intros a Ha NI j Hj.
  destruct (list_in_dec n' q a) as [(i & Hi & E)|NI']; [|apply C; auto; lia].
  rewrite <- E. apply O; [|exact Hi]. destruct (Nat.le_gt_cases j i) as [H|H]; [exact H|]. exfalso. apply (NI i); [lia|exact E].
Qed.
Lemma nearest_among test train N x n n' q q' : (n <= n')%nat -> no_ties test train N x ->
  nearest_rows test train N x n q -> nearest_rows test train N x n' q' -> among n q n' q'.
Proof.
  intros L NT NR NR'. exists (fun i => i). split; [|auto]. intros i Hi. split; [lia|].
  apply (nearest_unique test train N x n q' q NT); auto. apply (nearest_prefix test train N x n n' q'); auto.
Qed.
End Best.

Section Predict.
Variables (gamma : R -> R) (kv : R -> R -> R) (ls : lsolver).
Hypothesis EX : exact_solver ls.
Local Notation lib g K cur := (lib_model gamma kv g K cur).

Lemma best_of g K cur test train M n q mean var targets ex :
  lk_ok K (feature_count train) cur [] -> well_posed (gp_noise g) train M n q ->
  (forall x, (x < M)%nat -> nonsingular n (nbr_matrix (lk_cov gamma kv K (feature_count train) cur []) (gp_noise g) train q x)) ->
  (forall x, (x < M)%nat ->
      (forall e, inb ex e ->
        kriging n (nbr_matrix (lk_cov gamma kv K (feature_count train) cur []) (gp_noise g) train q x)
          (fun j => kcov (lk_cov gamma kv K (feature_count train) cur []) test train x (q x j))
          (fun j => at_ targets (q x j :: e)) (at_ mean (x :: e))) /\
      (exists wv, solves n (nbr_matrix (lk_cov gamma kv K (feature_count train) cur []) (gp_noise g) train q x) wv
          (fun j => kcov (lk_cov gamma kv K (feature_count train) cur []) test train x (q x j)) /\
        at_ var [x] = gp_var_scale g *
          (1 - dot n wv (fun j => kcov (lk_cov gamma kv K (feature_count train) cur []) test train x (q x j))))) ->
  forall x, (x < M)%nat -> exists u,
      (forall e, inb ex e -> at_ mean (x :: e) = rsum n (fun j => u j * at_ targets (q x j :: e))) /\
      (let error := error_variance (lk_cov gamma kv K (feature_count train) cur []) (gp_noise g) test train x n (q x) in
       at_ var [x] = gp_var_scale g * error u /\
       forall v, error u <= error v /\ (error v = error u -> forall j, (j < n)%nat -> v j = u j)).
Proof.
  intros OK WP NS H x Hx. destruct (H x Hx) as (HM & u & SO & EV). exists u. split.
  - intros e He. destruct (HM e He) as (u' & SO' & ->). unfold dot. apply rsum_ext. intros j Hj.
    rewrite (solves_unique n _ u' u _ (NS x Hx) SO' SO j Hj). reflexivity.
  - destruct (error_optimal gamma kv K cur [] (gp_noise g) test train M x n q u OK WP Hx SO) as [E O]. cbv zeta. split; [|exact O].
    rewrite E. exact EV.
Qed.

Lemma choose_weights M (P : nat -> (nat -> R) -> Prop) : (forall x, (x < M)%nat -> exists u, P x u) -> exists u, forall x, (x < M)%nat -> P x (u x).
Proof.
  induction M as [|M IH]; intros H; [exists (fun _ _ => 0); intros; lia|].
  destruct IH as [u U]; [intros; apply H; lia|]. destruct (H M) as [v V]; [lia|].
  exists (fun x => if (x =? M)%nat then v else u x). intros x Hx. destruct (Nat.eqb_spec x M) as [->|]; [exact V|apply U; lia].
Qed.


Lemma variance_order g K cur test train M n q n' q' x u u' :
  lk_ok K (feature_count train) cur [] -> uniform_noise (gp_noise g) ->
  well_posed (gp_noise g) train M n q -> well_posed (gp_noise g) train M n' q' -> (x < M)%nat -> among n (q x) n' (q' x) ->
  0 <= gp_var_scale g ->
  let k := lk_cov gamma kv K (feature_count train) cur [] in
  solves n (nbr_matrix k (gp_noise g) train q x) u (fun j => kcov k test train x (q x j)) ->
  solves n' (nbr_matrix k (gp_noise g) train q' x) u' (fun j => kcov k test train x (q' x j)) ->
  gp_var_scale g * (1 - dot n' u' (fun j => kcov k test train x (q' x j))) <= gp_var_scale g * (1 - dot n u (fun j => kcov k test train x (q x j))).
Proof.
  intros OK U WP WP' Hx AM SC k SO SO'.
  destruct (error_optimal gamma kv K cur [] (gp_noise g) test train M x n q u OK WP Hx SO) as [E _].
  destruct (error_optimal gamma kv K cur [] (gp_noise g) test train M x n' q' u' OK WP' Hx SO') as [E' O].
  fold k in E, E', O. destruct (error_padded k (gp_noise g) test train x n (q x) n' (q' x) u U AM) as [w' W].
  pose proof (proj1 (O w')) as L. rewrite W, E, E' in L. apply Rmult_le_compat_l; auto.
Qed.

Lemma more_neighbors g K cur nn nn' test train targets N M n n' q q' ex :
  lk_ok K (feature_count train) cur [] -> dataset test M -> dataset train N -> ndim test = ndim train ->
  feature_count test = feature_count train -> shape targets = N :: ex -> no_coincidence ex [n] -> no_coincidence ex [n'] ->
  shape (gp_Kout g) = [] -> at_ (gp_Kout g) [] = 1 -> 0 <= gp_var_scale g ->
  index_matrix nn M n N q -> index_matrix nn' M n' N q' -> uniform_noise (gp_noise g) ->
  well_posed (gp_noise g) train M n q -> well_posed (gp_noise g) train M n' q' ->
  exists mean var mean' var',
    regress_from_indices ls (lib g K cur) (arange M) nn test train targets = Ok (mean, var) /\
    regress_from_indices ls (lib g K cur) (arange M) nn' test train targets = Ok (mean', var') /\
    forall x, (x < M)%nat -> among n (q x) n' (q' x) -> at_ var' [x] <= at_ var [x].
Proof.
  intros OK D1 D2 ND FC HT NC NC' SK K1 SC IM IM' U WP WP'.
  destruct (regress_indices gamma kv ls EX g K cur [] nn test train targets N M n q ex) as (mean & var & E & _ & _ & V); auto.
  { apply uniform_fits; auto. }
  destruct (regress_indices gamma kv ls EX g K cur [] nn' test train targets N M n' q' ex) as (mean' & var' & E' & _ & _ & V'); auto.
  { apply uniform_fits; auto. }
  exists mean, var, mean', var'. split; [exact E|]. split; [exact E'|]. intros x Hx AM.
  destruct (V x Hx) as (_ & (u & SO & ->) & _). destruct (V' x Hx) as (_ & (u' & SO' & ->) & _).
  apply (variance_order g K cur test train M n q n' q' x u u'); auto.
Qed.

Section Lookup.
Variable knn : dict nnval -> list point -> point -> nat -> list (nat * R).
Variable hnsw : nnval -> list point -> point -> nat -> list (nat * R).
Variable dist : dict nnval -> point -> point -> R.
Hypothesis Hsk : sklearn_ok knn dist.

Lemma best_linear en method kw w g K cur test train targets N M n ex :
  lower method = "exact"%string -> euclidean_kw kw -> nn_init en (rows_of train) n method kw = Ok w -> (0 < n <= N /\ 0 < M)%nat ->
  dataset test M -> dataset train N -> ndim test = ndim train -> feature_count test = feature_count train ->
  lk_ok K (feature_count train) cur [] -> shape targets = N :: ex -> no_coincidence ex [n] ->
  shape (gp_Kout g) = [] -> at_ (gp_Kout g) [] = 1 -> 0 <= gp_var_scale g ->
  noise_fits (gp_noise g) M n -> sound_noise (gp_noise g) train N M n ->
  exists mean var q u,
    regress_any ls knn hnsw (Univariate (lib g K cur)) test train w targets = Ok (mean, var) /\
    forall x, (x < M)%nat ->
      nearest_rows test train N x n (q x) /\
      (forall e, inb ex e -> at_ mean (x :: e) = rsum n (fun j => u x j * at_ targets (q x j :: e))) /\
      (let error := error_variance (lk_cov gamma kv K (feature_count train) cur []) (gp_noise g) test train x n (q x) in
       at_ var [x] = gp_var_scale g * error (u x) /\
       forall v, error (u x) <= error v /\ (error v = error (u x) -> forall j, (j < n)%nat -> v j = u x j)).
Proof.
  intros Hm He Hi Hn D1 D2 ND FC OK HT NC SK K1 SC NF SN.
  destruct (regress_any_nbr gamma kv ls EX knn hnsw dist Hsk en method kw w g K cur [] test train targets N M n ex)
    as (mean & var & E & S1 & S2 & NS & V); auto.
  assert (WP : well_posed (gp_noise g) train M n (nbr knn hnsw w test)).
  { apply (sound_well_posed _ test train N); auto. intros x Hx. apply V; auto. }
  destruct (choose_weights M _ (best_of g K cur test train M n (nbr knn hnsw w test) mean var targets ex OK WP NS
      (fun x Hx => match V x Hx with conj _ (conj a (conj b _)) => conj a b end))) as [u HU].
  exists mean, var, (nbr knn hnsw w test), u. split; [exact E|]. intros x Hx. split; [apply V; auto|]. apply HU; auto.
Qed.

Lemma best_mse en method kw w g K cur test train targets N M n ex :
  lower method = "exact"%string -> euclidean_kw kw -> nn_init en (rows_of train) n method kw = Ok w -> (0 < n <= N /\ 0 < M)%nat ->
  dataset test M -> dataset train N -> ndim test = ndim train -> feature_count test = feature_count train ->
  lk_ok K (feature_count train) cur [] -> shape targets = N :: ex -> no_coincidence ex [n] ->
  shape (gp_Kout g) = [] -> at_ (gp_Kout g) [] = 1 -> 0 <= gp_var_scale g ->
  noise_fits (gp_noise g) M n -> sound_noise (gp_noise g) train N M n ->
  exists mean var q u,
    regress_any ls knn hnsw (Univariate (lib g K cur)) test train w targets = Ok (mean, var) /\
    forall x, (x < M)%nat ->
      nearest_rows test train N x n (q x) /\
      (forall e, inb ex e -> at_ mean (x :: e) = rsum n (fun j => u x j * at_ targets (q x j :: e))) /\
      forall outcomes pi f y,
        model_moments outcomes pi f y (lk_cov gamma kv K (feature_count train) cur []) (gp_noise g) (gp_var_scale g) test train x n (q x) ->
        at_ var [x] = mean_squared_error outcomes pi f y n (u x) /\
        forall v, mean_squared_error outcomes pi f y n (u x) <= mean_squared_error outcomes pi f y n v.
Proof.
  intros Hm He Hi Hn D1 D2 ND FC OK HT NC SK K1 SC NF SN.
  destruct (best_linear en method kw w g K cur test train targets N M n ex) as (mean & var & q & u & E & V); auto.
  exists mean, var, q, u. split; [exact E|]. intros x Hx. destruct (V x Hx) as (A & B & C & D). split; [exact A|]. split; [exact B|].
  intros outcomes pi f y MM. rewrite (mse_moments _ _ _ _ _ _ _ _ _ _ _ _ (u x) MM). split; [exact C|].
  intros v. rewrite (mse_moments _ _ _ _ _ _ _ _ _ _ _ _ v MM). apply Rmult_le_compat_l; [exact SC|apply D].
Qed.

Lemma more_neighbors_any en method kw w en' method' kw' w' g K cur test train targets N M n n' ex :
  lower method = "exact"%string -> euclidean_kw kw -> nn_init en (rows_of train) n method kw = Ok w ->
  lower method' = "exact"%string -> euclidean_kw kw' -> nn_init en' (rows_of train) n' method' kw' = Ok w' -> (0 < n <= n' /\ n' <= N /\ 0 < M)%nat ->
  dataset test M -> dataset train N -> ndim test = ndim train -> feature_count test = feature_count train ->
  lk_ok K (feature_count train) cur [] -> shape targets = N :: ex -> no_coincidence ex [n] -> no_coincidence ex [n'] ->
  shape (gp_Kout g) = [] -> at_ (gp_Kout g) [] = 1 -> 0 <= gp_var_scale g ->
  uniform_noise (gp_noise g) -> sound_noise (gp_noise g) train N M n' ->
  exists mean var mean' var',
    regress_any ls knn hnsw (Univariate (lib g K cur)) test train w targets = Ok (mean, var) /\
    regress_any ls knn hnsw (Univariate (lib g K cur)) test train w' targets = Ok (mean', var') /\
    forall x, (x < M)%nat -> no_ties test train N x -> at_ var' [x] <= at_ var [x].
Proof.
  intros Hm He Hi Hm' He' Hi' Hn D1 D2 ND FC OK HT NC NC' SK K1 SC U SN'.
  assert (SN : sound_noise (gp_noise g) train N M n).
  { destruct SN' as [P|[P D]]; [left|right; split; [|exact D]]; intros x i Hx Hi0; apply P; auto; lia. }
  destruct (regress_any_nbr gamma kv ls EX knn hnsw dist Hsk en method kw w g K cur [] test train targets N M n ex)
    as (mean & var & E & _ & _ & _ & V); auto; [lia|apply uniform_fits; auto|].
  destruct (regress_any_nbr gamma kv ls EX knn hnsw dist Hsk en' method' kw' w' g K cur [] test train targets N M n' ex)
    as (mean' & var' & E' & _ & _ & _ & V'); auto; [lia|apply uniform_fits; auto|].
  exists mean, var, mean', var'. split; [exact E|]. split; [exact E'|]. intros x Hx NT.
  destruct (V x Hx) as (A & _ & (u & SO & ->) & _). destruct (V' x Hx) as (A' & _ & (u' & SO' & ->) & _).
  apply (variance_order g K cur test train M n (nbr knn hnsw w test) n' (nbr knn hnsw w' test) x u u'); auto.
  - apply (sound_well_posed _ test train N); auto. intros z Hz. apply V; auto.
  - apply (sound_well_posed _ test train N); auto. intros z Hz. apply V'; auto.
  - apply (nearest_among test train N x); auto. lia.
Qed.
End Lookup.
End Predict.
