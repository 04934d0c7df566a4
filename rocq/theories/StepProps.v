(** C119: adding one observation is a Kalman step. *)
From Coq Require Import Lia Lra.
From Verif Require Import Base BaseFacts NdModel NdFacts RSum HyperModel NamedModel NamedSpec LinAlgModel LinAlgSpec Gauss
  GPModel NoiseModel MuyGPSModel GPSpec GPTheorems TensorModel TensorSpec KernelModel KernelSpec FlowModel FlowSpec LibSpec LibProofs
  NeighborsModel NeighborsSpec NeighborsProofs BatchProofs MultiModel DriverModel WorkModel WorkSpec WorkProofs WorkLemmas WorkProps StepSpec StepProofs.
Local Open Scope R_scope.
Local Open Scope string_scope.

(** * C119 *)
(** [nn] lists [w] neighbours of every test row, [nn'] the same and one more, whose features are row [x] of [arrived].  With c the covariance
    that remains between test row and new row, v the variance (before scaling) of the new row's prediction from the old neighbours and nu the
    noise of its observation: the mean moves by c / (v + nu) times the surprise, the variance falls by c^2 / (v + nu) times the scale. *)
Theorem C119_step : forall gamma kv ls, exact_solver ls -> forall g g' K cur nn nn' test train arrived targets N M w q q' ex,
  lk_ok K (feature_count train) cur [] -> dataset test M -> dataset train N -> ndim test = ndim train ->
  feature_count test = feature_count train -> shape arrived = shape test -> shape targets = N :: ex ->
  no_coincidence ex [w] -> no_coincidence ex [S w] ->
  shape (gp_Kout g) = [] -> at_ (gp_Kout g) [] = 1 -> shape (gp_Kout g') = [] -> at_ (gp_Kout g') [] = 1 ->
  0 <= gp_var_scale g -> gp_var_scale g' = gp_var_scale g ->
  index_matrix nn M w N q -> index_matrix nn' M (S w) N q' -> one_more w q q' M -> arrivals arrived train q' w M ->
  noise_fits (gp_noise g) M w -> noise_fits (gp_noise g') M (S w) -> noise_extends (gp_noise g) (gp_noise g') M w ->
  well_posed (gp_noise g) train M w q -> well_posed (gp_noise g') train M (S w) q' ->
  exists mean var mean_a var_a mean' var',
    regress_from_indices ls (lib_model gamma kv g K cur) (arange M) nn test train targets = Ok (mean, var) /\
    regress_from_indices ls (lib_model gamma kv g K cur) (arange M) nn arrived train targets = Ok (mean_a, var_a) /\
    regress_from_indices ls (lib_model gamma kv g' K cur) (arange M) nn' test train targets = Ok (mean', var') /\
    shape mean' = shape mean /\ shape var' = shape var /\
    forall x, (x < M)%nat -> exists c v,
      remaining_covariance (lk_cov gamma kv K (feature_count train) cur []) (gp_noise g) test train w x q (q' x w) c /\
      at_ var_a [x] = gp_var_scale g * v /\ 0 < v + noise_at (gp_noise g') None x w /\
      (forall e, inb ex e -> at_ mean' (x :: e) =
         at_ mean (x :: e) + c / (v + noise_at (gp_noise g') None x w) * (at_ targets (q' x w :: e) - at_ mean_a (x :: e))) /\
      at_ var' [x] = at_ var [x] - gp_var_scale g * (c ^ 2 / (v + noise_at (gp_noise g') None x w)).
Proof. exact added. Qed.
Print Assumptions C119_step.

(** Consequences in terms of the outputs of the three calls alone: an observation that equals its own prediction leaves the mean unchanged; the
    squared movement of the mean times the predictive variance of the observation is the drop of the variance times the squared surprise; an
    observation that leaves the variance unchanged leaves the mean unchanged. *)
Theorem C119_surprise : forall gamma kv ls, exact_solver ls -> forall g g' K cur nn nn' test train arrived targets N M w q q' ex
    mean var mean_a var_a mean' var',
  lk_ok K (feature_count train) cur [] -> dataset test M -> dataset train N -> ndim test = ndim train ->
  feature_count test = feature_count train -> shape arrived = shape test -> shape targets = N :: ex ->
  no_coincidence ex [w] -> no_coincidence ex [S w] ->
  shape (gp_Kout g) = [] -> at_ (gp_Kout g) [] = 1 -> shape (gp_Kout g') = [] -> at_ (gp_Kout g') [] = 1 ->
  0 <= gp_var_scale g -> gp_var_scale g' = gp_var_scale g ->
  index_matrix nn M w N q -> index_matrix nn' M (S w) N q' -> one_more w q q' M -> arrivals arrived train q' w M ->
  noise_fits (gp_noise g) M w -> noise_fits (gp_noise g') M (S w) -> noise_extends (gp_noise g) (gp_noise g') M w ->
  well_posed (gp_noise g) train M w q -> well_posed (gp_noise g') train M (S w) q' ->
  regress_from_indices ls (lib_model gamma kv g K cur) (arange M) nn test train targets = Ok (mean, var) ->
  regress_from_indices ls (lib_model gamma kv g K cur) (arange M) nn arrived train targets = Ok (mean_a, var_a) ->
  regress_from_indices ls (lib_model gamma kv g' K cur) (arange M) nn' test train targets = Ok (mean', var') ->
  forall x e, (x < M)%nat -> inb ex e ->
    (at_ targets (q' x w :: e) = at_ mean_a (x :: e) -> at_ mean' (x :: e) = at_ mean (x :: e)) /\
    (at_ mean' (x :: e) - at_ mean (x :: e)) ^ 2 * (at_ var_a [x] + gp_var_scale g * noise_at (gp_noise g') None x w) =
      (at_ var [x] - at_ var' [x]) * (at_ targets (q' x w :: e) - at_ mean_a (x :: e)) ^ 2 /\
    (0 < gp_var_scale g -> at_ var' [x] = at_ var [x] -> at_ mean' (x :: e) = at_ mean (x :: e)).
Proof.
  intros gamma kv ls EX g g' K cur nn nn' test train arrived targets N M w q q' ex mean var mean_a var_a mean' var'
    OK D1 D2 ND FC SA HT NC NC' SK K1 SK' K1' SC SC' IM IM' OM AR NF NF' NE WP WP' E1 E2 E3 x e Hx He.
  destruct (added gamma kv ls EX g g' K cur nn nn' test train arrived targets N M w q q' ex OK D1 D2 ND FC SA HT NC NC' SK K1 SK' K1' SC SC'
    IM IM' OM AR NF NF' NE WP WP') as (m1 & v1 & m2 & v2 & m3 & v3 & F1 & F2 & F3 & _ & _ & H).
  assert (m1 = mean /\ v1 = var) as [-> ->] by (split; congruence). assert (m2 = mean_a /\ v2 = var_a) as [-> ->] by (split; congruence).
  assert (m3 = mean' /\ v3 = var') as [-> ->] by (split; congruence).
  destruct (H x Hx) as (c & v & _ & EV & SP & HM & HV). rewrite (HM e He), HV, EV. set (s := v + noise_at (gp_noise g') None x w) in *.
  split; [intros ->; field; lra|]. split.
  - unfold s in *. field. lra.
  - intros P Q. assert (G : gp_var_scale g * (c ^ 2 / s) = 0) by lra.
    assert (C2 : c ^ 2 / s = 0) by (apply Rmult_eq_reg_l with (gp_var_scale g); lra).
    assert (C3 : c ^ 2 = 0) by (transitivity (c ^ 2 / s * s); [field; lra|rewrite C2; ring]).
    assert (C0 : c = 0) by (replace (c ^ 2) with (c * c) in C3 by ring; apply Rmult_integral in C3; destruct C3; assumption).
    rewrite C0. field. lra.
Qed.
Print Assumptions C119_surprise.

(** With one more neighbour from the lookup the prediction is the step with the (n+1)-th nearest training row ([m_a], [v]: its prediction from
    the [n] nearer ones). *)
Theorem C119_lookup : forall gamma kv ls, exact_solver ls -> forall knn hnsw dist, sklearn_ok knn dist ->
  forall en method kw lu en' method' kw' lu' g K cur test train targets N M n ex,
  lower method = "exact" -> euclidean_kw kw -> nn_init en (rows_of train) n method kw = Ok lu ->
  lower method' = "exact" -> euclidean_kw kw' -> nn_init en' (rows_of train) (S n) method' kw' = Ok lu' -> (0 < n /\ S n <= N /\ 0 < M)%nat ->
  dataset test M -> dataset train N -> ndim test = ndim train -> feature_count test = feature_count train ->
  lk_ok K (feature_count train) cur [] -> shape targets = N :: ex -> no_coincidence ex [n] -> no_coincidence ex [S n] ->
  shape (gp_Kout g) = [] -> at_ (gp_Kout g) [] = 1 -> 0 <= gp_var_scale g ->
  uniform_noise (gp_noise g) -> sound_noise (gp_noise g) train N M (S n) ->
  exists mean var mean' var',
    regress_any ls knn hnsw (Univariate (lib_model gamma kv g K cur)) test train lu targets = Ok (mean, var) /\
    regress_any ls knn hnsw (Univariate (lib_model gamma kv g K cur)) test train lu' targets = Ok (mean', var') /\
    shape mean' = shape mean /\ shape var' = shape var /\
    forall x, (x < M)%nat -> no_ties test train N x -> exists q c v (m_a : (nat -> R) -> R),
      let k := lk_cov gamma kv K (feature_count train) cur [] in
      nearest_rows test train N x (S n) q /\
      remaining_covariance k (gp_noise g) test train n x (fun _ => q) (q n) c /\
      (exists be, solves n (nbr_matrix k (gp_noise g) train (fun _ => q) x) be (fun j => kcov k train train (q n) (q j)) /\
         v = 1 - dot n be (fun j => kcov k train train (q n) (q j)) /\ m_a = dot n be) /\
      0 < v + noise_at (gp_noise g) None x n /\
      (forall e, inb ex e -> at_ mean' (x :: e) = at_ mean (x :: e) +
         c / (v + noise_at (gp_noise g) None x n) * (at_ targets (q n :: e) - m_a (fun j => at_ targets (q j :: e)))) /\
      at_ var' [x] = at_ var [x] - gp_var_scale g * (c ^ 2 / (v + noise_at (gp_noise g) None x n)).
Proof. exact added_any. Qed.
Print Assumptions C119_lookup.

(** Test rows at 1 and 2/5; first neighbour 0, then also 1, observed with noise 1/2. *)
Definition ex119_gp : gp := mkGp (HeteroscedasticNoise (mkNd [2; 2]%nat (fun idx => match idx with [_; O] => 0 | _ => 1/2 end))) FixedScale 1 1 (mkNd [] (fun _ => 1)).
Definition ex119_nn (w : nat) : nd Z := mkNd [2%nat; w] (fun idx => match idx with [_; j] => Z.of_nat j | _ => 0%Z end).
Definition ex119_arrived : nd R := mkNd [2%nat] (fun _ => 1).
Example C119_sat : lk_ok ex80_K (feature_count ex80_train) (fun _ => 1) [] /\ dataset ex80_test 2 /\ dataset ex80_train 3 /\
  ndim ex80_test = ndim ex80_train /\ feature_count ex80_test = feature_count ex80_train /\ shape ex119_arrived = shape ex80_test /\
  shape ex80_targets = [3%nat] /\ no_coincidence [] [1%nat] /\ no_coincidence [] [2%nat] /\
  index_matrix (ex119_nn 1) 2 1 3 (fun _ j => j) /\ index_matrix (ex119_nn 2) 2 2 3 (fun _ j => j) /\ one_more 1 (fun _ j => j) (fun _ j => j) 2 /\
  arrivals ex119_arrived ex80_train (fun _ j => j) 1 2 /\ noise_fits (gp_noise ex80_gp) 2 1 /\ noise_fits (gp_noise ex119_gp) 2 2 /\
  noise_extends (gp_noise ex80_gp) (gp_noise ex119_gp) 2 1 /\ well_posed (gp_noise ex80_gp) ex80_train 2 1 (fun _ j => j) /\
  well_posed (gp_noise ex119_gp) ex80_train 2 2 (fun _ j => j) /\ inb [] [].
Proof.
  split. { split; [reflexivity|]. split; [apply Nat.lt_0_1|]. split; [intros f _; cbn; lra|reflexivity]. }
  split; [left; reflexivity|]. split; [left; reflexivity|]. split; [reflexivity|]. split; [reflexivity|]. split; [reflexivity|]. split; [reflexivity|].
  split; [apply no_coincidence_nil|]. split; [apply no_coincidence_nil|].
  split. { split; [reflexivity|]. intros x j _ Hj. split; [reflexivity|lia]. }
  split. { split; [reflexivity|]. intros x j _ Hj. split; [reflexivity|lia]. }
  split; [intros x j _ _; reflexivity|]. split; [intros x _ f _; reflexivity|].
  split; [exact I|]. split; [split; [reflexivity|lia]|].
  split. { intros x j _ Hj. assert (j = O) as -> by lia. reflexivity. }
  split. { intros x Hx. right. split; [intros; cbn; lra|]. intros i j Hi Hj Hij. lia. }
  split; [|apply inb_nil].
  intros x Hx. right. split.
  - intros i Hi. destruct i as [|[|i]]; [| |lia]; cbn; lra.
  - intros i j Hi Hj Hij. exists O. split; [apply Nat.lt_0_1|].
    destruct i as [|[|i]]; [| |lia]; (destruct j as [|[|j]]; [| |lia]); try lia; unfold feature, ex80_train; cbn; lra.
Qed.

Example C119_lookup_sat : exists knn dist w w', sklearn_ok knn dist /\ euclidean_kw [] /\ lower "Exact" = "exact" /\
  nn_init false (rows_of ex80_train) 1 "Exact" [] = Ok w /\ nn_init false (rows_of ex80_train) 2 "Exact" [] = Ok w' /\
  uniform_noise (gp_noise ex80_gp) /\ sound_noise (gp_noise ex80_gp) ex80_train 3 2 2 /\ no_ties ex80_test ex80_train 3 1.
Proof.
  destruct C80_sat as (knn & dist & w & w' & H). decompose [and] H. exists knn, dist. do 2 eexists.
  split; [assumption|]. split; [assumption|]. split; [assumption|]. split; [reflexivity|]. split; [reflexivity|]. split; [left; reflexivity|]. split; assumption.
Qed.
