(** Proofs about the dependence of predictions on the hyperparameters at every setting where the prediction succeeds. *)
From Coq Require Import Lia Lra.
From Verif Require Import Base BaseFacts NdModel NdFacts RSum HyperModel NamedModel NamedSpec LinAlgModel LinAlgSpec LinAlgFacts Gauss
  GPModel NoiseModel MuyGPSModel GPSpec MuyGPSProofs GPTheorems WellPosedProofs TensorModel TensorSpec TensorProofs KernelModel KernelSpec KernelProofs
  NeighborsModel NeighborsSpec NeighborsProofs FlowModel FlowSpec FlowProofs PointwiseSpec PointwiseProofs LibSpec LibProofs
  MultiModel DriverModel WorkModel WorkSpec WorkProofs WorkLemmas BestSpec BestProofs SimProofs LocalSpec LocalProofs FarSpec FarProofs SmoothSpec SmoothProofs
  ContSpec ContProofs ContProofs2 Cont3Spec.
Local Open Scope R_scope.

(** ** The inverse of a nonsingular matrix is bounded *)
Definition l1 (n : nat) (v : nat -> R) : R := rsum n (fun i => Rabs (v i)).
Lemma l1_nonneg n v : 0 <= l1 n v.
Proof. apply rsum_nonneg. intros; apply Rabs_pos. Qed.
Lemma l1_term n v i : (i < n)%nat -> Rabs (v i) <= l1 n v.
Proof. intros Hi. apply (rsum_term_le n (fun i => Rabs (v i)) i (fun i _ => Rabs_pos (v i)) Hi). Qed.

Lemma inverse_bound n A : nonsingular n A -> exists C, 0 < C /\ forall v b, solves n A v b -> l1 n v <= C * l1 n b.
Proof.
  intros NS. destruct (proj1 (proj2 gauss_exact n n A (fun i c => delta i c)) NS) as (X & EX').
  pose proof (proj1 gauss_exact n n A _ X EX') as SX.
  exists (1 + rsum n (fun i => l1 n (X i))). split.
  { assert (0 <= rsum n (fun i => l1 n (X i))) by (apply rsum_nonneg; intros; apply l1_nonneg). lra. }
  intros v b S.
  assert (S' : solves n A (fun i => rsum n (fun c => X i c * b c)) b).
  { intros i Hi. transitivity (rsum n (fun c => b c * rsum n (fun j => A i j * X j c))).
    - rewrite (rsum_ext n _ (fun j => rsum n (fun c => A i j * (X j c * b c)))) by (intros; rewrite rsum_scal; reflexivity).
      rewrite rsum_swap. apply rsum_ext. intros c Hc. rewrite <- rsum_scal. apply rsum_ext. intros; ring.
    - rewrite (rsum_ext n _ (fun c => delta i c * b c)); [apply rsum_delta_l; exact Hi|].
      intros c Hc. pose proof (SX c Hc i Hi) as E. cbn beta in E. rewrite E. ring. }
  pose proof (solves_unique n A _ _ b NS S S') as U.
  assert (L : l1 n v <= rsum n (fun i => l1 n (X i)) * l1 n b).
  { unfold l1 at 1. rewrite (rsum_ext n _ (fun i => Rabs (rsum n (fun c => X i c * b c)))) by (intros i Hi; rewrite U by exact Hi; reflexivity).
    rewrite Rmult_comm, <- rsum_scal. apply rsum_le. intros i Hi. eapply Rle_trans; [apply rsum_abs|].
    unfold l1 at 2. rewrite <- rsum_scal. apply rsum_le. intros c Hc. rewrite Rabs_mult, Rmult_comm.
    apply Rmult_le_compat_r; [apply Rabs_pos|]. apply l1_term. exact Hc. }
  pose proof (l1_nonneg n b). lra.
Qed.

(** Perturbing a system by [d]. *)
Lemma perturbed_residual n A0 A k0 k w0 w d : 0 <= d -> solves n A0 w0 k0 -> solves n A w k ->
  (forall i j, (i < n)%nat -> (j < n)%nat -> Rabs (A i j - A0 i j) <= d) -> (forall i, (i < n)%nat -> Rabs (k i - k0 i) <= d) ->
  l1 n (fun i => rsum n (fun j => A0 i j * (w j - w0 j))) <= INR n * (d * (1 + l1 n w)).
Proof.
  intros D S0 S HA HK. unfold l1 at 1. rewrite <- rsum_const. apply rsum_le. intros i Hi.
  assert (E : rsum n (fun j => A0 i j * (w j - w0 j)) = (k i - k0 i) - rsum n (fun j => (A i j - A0 i j) * w j)).
  { rewrite <- (S0 i Hi), <- (S i Hi), <- !rsum_minus. apply rsum_ext. intros; ring. }
  rewrite E. eapply Rle_trans; [apply Rabs_triang|]. rewrite Rabs_Ropp, Rmult_plus_distr_l, Rmult_1_r.
  apply Rplus_le_compat; [apply HK; exact Hi|]. eapply Rle_trans; [apply rsum_abs|]. unfold l1. rewrite <- rsum_scal.
  apply rsum_le. intros j Hj. rewrite Rabs_mult. apply Rmult_le_compat_r; [apply Rabs_pos|apply HA; auto].
Qed.

Section Tends3.
Context {T : Type}.
Variable near : R -> T -> Prop.
Hypothesis MON : forall d d' t, near d t -> d <= d' -> near d' t.
Notation tends := (tends near).
Notation eventually := (eventually near).

Lemma ev_nonsingular n (A : T -> nat -> nat -> R) A0 : nonsingular n A0 ->
  (forall i j, (i < n)%nat -> (j < n)%nat -> tends (fun t => A t i j) (A0 i j)) -> eventually (fun t => nonsingular n (A t)).
Proof.
  intros NS TA. destruct (inverse_bound n A0 NS) as (C & C0 & B). pose proof (pos_INR n) as N0.
  set (d := / (2 * C * (1 + INR n))).
  assert (P : 0 < 2 * C * (1 + INR n)) by (apply Rmult_lt_0_compat; lra).
  assert (D : 0 < d) by (apply Rinv_0_lt_compat; exact P).
  assert (EA : eventually (fun t => forall i, (i < n)%nat -> forall j, (j < n)%nat -> Rabs (A t i j - A0 i j) <= d)).
  { apply (ev_all near MON n). intros i Hi. apply (ev_all near MON n). intros j Hj. apply (tends_within near (fun t => A t i j)); auto. }
  apply (ev_imp near _ _ EA). intros t HA v S j Hj.
  set (b := fun i => rsum n (fun j => A0 i j * v j)).
  assert (SB : solves n A0 v b) by (intros i Hi; reflexivity).
  pose proof (B v b SB) as L.
  assert (LB : l1 n b <= INR n * (d * l1 n v)).
  { unfold l1 at 1. rewrite <- rsum_const. apply rsum_le. intros i Hi.
    assert (E : b i = - rsum n (fun j => (A t i j - A0 i j) * v j)).
    { unfold b. rewrite (rsum_ext n (fun j => (A t i j - A0 i j) * v j) (fun j => A t i j * v j - A0 i j * v j)) by (intros; ring).
      rewrite rsum_minus. pose proof (S i Hi) as E. cbn beta in E. rewrite E. ring. }
    rewrite E, Rabs_Ropp. eapply Rle_trans; [apply rsum_abs|]. unfold l1. rewrite <- rsum_scal. apply rsum_le. intros a Ha.
    rewrite Rabs_mult. apply Rmult_le_compat_r; [apply Rabs_pos|apply HA; auto]. }
  pose proof (l1_nonneg n v) as V0. pose proof (l1_term n v j Hj) as VJ. pose proof (Rabs_pos (v j)) as VP.
  assert (H : C * (INR n * (d * l1 n v)) <= l1 n v / 2).
  { assert (E : C * (1 + INR n) * d = / 2) by (unfold d; field; lra).
    assert (G : C * INR n * d <= / 2) by (rewrite <- E; apply Rmult_le_compat_r; [lra|]; apply Rmult_le_compat_l; lra).
    replace (C * (INR n * (d * l1 n v))) with (C * INR n * d * l1 n v) by ring. unfold Rdiv. rewrite (Rmult_comm (l1 n v)).
    apply Rmult_le_compat_r; auto. }
  assert (Z : l1 n v <= 0).
  { assert (C * l1 n b <= C * (INR n * (d * l1 n v))) by (apply Rmult_le_compat_l; lra). lra. }
  apply Rabs_eq_0 || idtac. destruct (Req_dec (v j) 0) as [|NE]; [assumption|]. apply Rabs_pos_lt in NE. lra.
Qed.

Lemma tends_solve_ns n (A : T -> nat -> nat -> R) (k w : T -> nat -> R) A0 k0 w0 : nonsingular n A0 -> solves n A0 w0 k0 ->
  (forall i j, (i < n)%nat -> (j < n)%nat -> tends (fun t => A t i j) (A0 i j)) -> (forall i, (i < n)%nat -> tends (fun t => k t i) (k0 i)) ->
  eventually (fun t => solves n (A t) (w t) (k t)) -> forall l, (l < n)%nat -> tends (fun t => w t l) (w0 l).
Proof.
  intros NS S0 TA TK SO l Hl eps EPS. destruct (inverse_bound n A0 NS) as (C & C0 & B). pose proof (pos_INR n) as N0.
  set (L0 := l1 n w0). assert (L00 : 0 <= L0) by apply l1_nonneg.
  set (P := C * (1 + INR n)). assert (P0 : 0 < P) by (apply Rmult_lt_0_compat; lra).
  set (d := Rmin (/ (2 * P)) (eps / (4 * P * (1 + L0)))).
  assert (Q0 : 0 < 4 * P * (1 + L0)) by (apply Rmult_lt_0_compat; lra).
  assert (D : 0 < d) by (apply Rmin_glb_lt; [apply Rinv_0_lt_compat; lra|apply Rmult_lt_0_compat; [lra|apply Rinv_0_lt_compat; exact Q0]]).
  assert (D1 : P * d <= / 2).
  { assert (X : d <= / (2 * P)) by apply Rmin_l. apply (Rmult_le_compat_l P) in X; [|lra].
    replace (P * / (2 * P)) with (/ 2) in X by (field; lra). exact X. }
  assert (D2 : P * d * (1 + L0) <= eps / 4).
  { assert (X : d <= eps / (4 * P * (1 + L0))) by apply Rmin_r. apply (Rmult_le_compat_l (P * (1 + L0))) in X; [|apply Rmult_le_pos; lra].
    replace (P * (1 + L0) * (eps / (4 * P * (1 + L0)))) with (eps / 4) in X by (field; lra). lra. }
  assert (EA : eventually (fun t => forall i, (i < n)%nat -> forall j, (j < n)%nat -> Rabs (A t i j - A0 i j) <= d)).
  { apply (ev_all near MON n). intros i Hi. apply (ev_all near MON n). intros j Hj. apply (tends_within near (fun t => A t i j)); auto. }
  assert (EK : eventually (fun t => forall i, (i < n)%nat -> Rabs (k t i - k0 i) <= d)).
  { apply (ev_all near MON n). intros i Hi. apply (tends_within near (fun t => k t i)); auto. }
  apply (ev_imp near _ _ (ev_and near MON _ _ SO (ev_and near MON _ _ EA EK))). intros t (S & HA & HK).
  pose proof (perturbed_residual n A0 (A t) k0 (k t) w0 (w t) d ltac:(lra) S0 S (fun i j Hi Hj => HA i Hi j Hj) HK) as RS.
  set (b := fun i => rsum n (fun j => A0 i j * (w t j - w0 j))) in RS.
  pose proof (B (fun j => w t j - w0 j) b (fun i Hi => eq_refl)) as L. set (E := l1 n (fun j => w t j - w0 j)) in L.
  assert (E0 : 0 <= E) by apply l1_nonneg.
  assert (WL : l1 n (w t) <= L0 + E).
  { unfold L0, E, l1. rewrite <- rsum_plus. apply rsum_le. intros i Hi.
    replace (w t i) with (w0 i + (w t i - w0 i)) at 1 by ring. apply Rabs_triang. }
  assert (LE : E <= P * d * (1 + L0) + P * d * E).
  { eapply Rle_trans; [exact L|]. apply Rle_trans with (C * (INR n * (d * (1 + l1 n (w t))))); [apply Rmult_le_compat_l; lra|].
    apply Rle_trans with (P * (d * (1 + (L0 + E)))); [|right; ring]. unfold P. rewrite Rmult_assoc. apply Rmult_le_compat_l; [lra|].
    pose proof (l1_nonneg n (w t)). apply Rmult_le_compat; try lra; [apply Rmult_le_pos; lra|apply Rmult_le_compat_l; lra]. }
  assert (PE : P * d * E <= / 2 * E) by (apply Rmult_le_compat_r; lra).
  apply Rle_lt_trans with E; [apply (l1_term n (fun j => w t j - w0 j)); exact Hl|lra].
Qed.

(** ** The Bessel form of the Matern kernel *)
Lemma tends_rpower (f g : T -> R) a b : 0 < a -> tends f a -> tends g b -> tends (fun t => Rpower (f t) (g t)) (Rpower a b).
Proof. intros A F G. unfold Rpower. apply (tends_exp near), (tends_mult near MON); [exact G|apply (tends_ln near); auto]. Qed.

Lemma tends_bessel gamma kv (nu r : T -> R) nu0 r0 : continuous_special gamma kv -> 0 < nu0 -> 0 < r0 -> tends nu nu0 -> tends r r0 ->
  tends (fun t => matern_bessel gamma kv (nu t) (r t)) (matern_bessel gamma kv nu0 r0).
Proof.
  intros [G KV] N0 R0 TN TR. unfold matern_bessel. destruct (G nu0 N0) as [G1 G2].
  assert (TS : tends (fun t => sqrt (2 * nu t) * r t) (sqrt (2 * nu0) * r0)).
  { apply (tends_mult near MON); [|exact TR]. apply (tends_sqrt near); [lra|]. apply (tends_scal near). exact TN. }
  assert (S0 : 0 < sqrt (2 * nu0) * r0) by (apply Rmult_lt_0_compat; [apply sqrt_lt_R0; lra|exact R0]).
  apply (tends_mult near MON); [apply (tends_mult near MON)|].
  - apply (tends_div near MON); [exact G1| |apply (tends_comp near gamma); auto].
    apply tends_rpower; [lra|apply tends_const|]. apply (tends_minus near MON); [apply tends_const|exact TN].
  - apply tends_rpower; auto.
  - intros eps EPS. destruct (KV nu0 _ N0 S0 eps EPS) as (d & D & H).
    apply (ev_imp near _ _ (ev_and near MON _ _ (TN d D) (TS d D))). intros t [A B]. apply H; auto.
Qed.

Lemma sdist_zero F l0 v : (forall f, (f < F)%nat -> 0 < l0 f) -> sdist F l0 v = 0 -> forall l, sdist F l v = 0.
Proof.
  intros P Z l. unfold sdist, scaled_sqdist in *.
  assert (NN : 0 <= rsum F (fun f => ((v f - 0) / l0 f) ^ 2)) by (apply rsum_nonneg; intros; apply pow2_ge_0).
  apply sqrt_eq_0 in Z; [|exact NN].
  rewrite (rsum_ext F _ (fun _ => 0)); [rewrite rsum_0; apply sqrt_0|]. intros f Hf.
  pose proof (rsum_term_le F (fun f => ((v f - 0) / l0 f) ^ 2) f (fun i _ => pow2_ge_0 _) Hf) as L. cbn beta in L.
  assert (Q : ((v f - 0) / l0 f) ^ 2 = 0) by (pose proof (pow2_ge_0 ((v f - 0) / l0 f)); lra).
  assert (V : v f = 0).
  { destruct (Req_dec (v f) 0) as [|NE]; [assumption|]. exfalso. revert Q. apply pow_nonzero. specialize (P f Hf).
    unfold Rdiv. apply Rmult_integral_contrapositive_currified; [lra|apply Rinv_neq_0_compat; lra]. }
  rewrite V. replace ((0 - 0) / l f) with 0; [ring|]. unfold Rdiv. ring.
Qed.

Lemma tends_matern_any gamma kv f F (nu : T -> R) (l : T -> nat -> R) nu0 l0 v : (f = General -> continuous_special gamma kv /\ 0 < nu0 /\ tends nu nu0) ->
  (forall g, (g < F)%nat -> 0 < l0 g) -> (forall g, (g < F)%nat -> tends (fun t => l t g) (l0 g)) ->
  tends (fun t => matern_value gamma kv f (nu t) (sdist F (l t) v)) (matern_value gamma kv f nu0 (sdist F l0 v)).
Proof.
  intros G P TL. pose proof (tends_sdist near MON F l l0 v P TL) as TD.
  assert (DEC : f <> General \/ f = General) by (destruct f; auto; left; discriminate). destruct DEC as [NG|EG].
  { apply (tends_matern near MON); auto. }
  destruct (G EG) as (CS & N0 & TN). subst f. cbn [matern_value]. destruct (Req_EM_T (sdist F l0 v) 0) as [Z|NZ].
  - apply (tends_ext near MON (fun t => matern_bessel gamma kv (nu t) (/ 2 ^ 52))).
    + exists 1. split; [lra|]. intros t _. rewrite (sdist_zero F l0 v P Z (l t)). destruct (Req_EM_T 0 0) as [|C]; [reflexivity|exfalso; apply C; reflexivity].
    + apply tends_bessel; auto; [|apply tends_const]. apply Rinv_0_lt_compat, pow_lt. lra.
  - assert (D0 : 0 < sdist F l0 v) by (pose proof (sqrt_pos (scaled_sqdist F l0 v (fun _ => 0))); unfold sdist in *; lra).
    apply (tends_ext near MON (fun t => matern_bessel gamma kv (nu t) (sdist F (l t) v))).
    + apply (ev_imp near _ _ (tends_pos near _ _ D0 TD)). intros t H. destruct (Req_EM_T (sdist F (l t) v) 0); [lra|reflexivity].
    + apply tends_bessel; auto.
Qed.
End Tends3.

Section Any3.
Variables (gamma : R -> R) (kv : R -> R -> R).
Variable ls : lsolver.
Hypothesis EX : exact_solver ls.
Variable knn : dict nnval -> list point -> point -> nat -> list (nat * R).
Variable hnsw : nnval -> list point -> point -> nat -> list (nat * R).
Variable dist : dict nnval -> point -> point -> R.
Hypothesis Hsk : sklearn_ok knn dist.

Lemma usable_pointwise K F cur : kernel_usable K F cur -> pointwise_kernel F (lk_call gamma kv K cur []) (lk_cov gamma kv K F cur []).
Proof.
  intros (OK & HF & POS & M). destruct K as [d|d sm p]; cbn [lk_call lk_cov lk_def] in *.
  - apply rbf_pointwise; auto.
  - destruct M as (M & N & _). apply matern_pointwise; auto.
Qed.

(** The workflow succeeds exactly when the neighbour systems are nonsingular. *)
Lemma regress_ns en method kw w g K cur test train targets N M n ex :
  lower method = "exact"%string -> euclidean_kw kw -> nn_init en (rows_of train) n method kw = Ok w -> (0 < n <= N /\ 0 < M)%nat ->
  dataset test M -> dataset train N -> ndim test = ndim train -> feature_count test = feature_count train ->
  kernel_usable K (feature_count train) cur -> shape targets = N :: ex -> no_coincidence ex [n] ->
  shape (gp_Kout g) = [] -> at_ (gp_Kout g) [] = 1 -> noise_fits (gp_noise g) M n ->
  let q := nbr knn hnsw w test in let k := lk_cov gamma kv K (feature_count train) cur [] in
  let A := fun x => nbr_matrix k (gp_noise g) train q x in let kc := fun x j => kcov k test train x (q x j) in
  (forall x, (x < M)%nat -> nearest_rows test train N x n (q x)) /\
  ((forall x, (x < M)%nat -> nonsingular n (A x)) -> exists mean var,
    regress_any ls knn hnsw (Univariate (lib_model gamma kv g K cur)) test train w targets = Ok (mean, var)) /\
  forall mean var, regress_any ls knn hnsw (Univariate (lib_model gamma kv g K cur)) test train w targets = Ok (mean, var) ->
    shape mean = M :: ex /\ shape var = [M] /\ forall x, (x < M)%nat -> nonsingular n (A x) /\
      at_ var [x] = gp_var_scale g * (1 - dot n (gsol n (A x) (kc x)) (kc x)) /\
      forall e, inb ex e -> at_ mean (x :: e) = dot n (gsol n (A x) (kc x)) (fun j => at_ targets (q x j :: e)).
Proof.
  intros Hm He Hi Hn D1 D2 ND FC OK HT NC SK K1 NF q k A kc.
  destruct (lookup_rows knn hnsw dist Hsk en method kw w test train N M n Hm He Hi Hn D1 D2 FC) as (I & D & EG & CW & IM & NR).
  fold q in IM, NR. split; [exact NR|].
  assert (PK : pointwise_kernel (feature_count train) (lk_call gamma kv K cur []) k) by (apply usable_pointwise; auto).
  destruct (crosswise_kernel (feature_count train) (lk_call gamma kv K cur []) k test train (arange M) (index_array n I) M N M n (fun x => x) q)
    as (cw & Kc & Ecw & EKc & SKc & HKc); auto.
  destruct (pairwise_kernel (feature_count train) (lk_call gamma kv K cur []) k train (index_array n I) N M n q PK D2 eq_refl IM)
    as (pw & Kin & Epw & EK & SKi & HKv).
  destruct (targets_take targets (index_array n I) N M n q ex HT IM) as (T & ETT & ST & HTv).
  assert (HKx : forall x, (x < M)%nat -> forall i j, (i < n)%nat -> (j < n)%nat ->
     plus_diag (rowmat Kin x) (noise_at (gp_noise g) None x) i j = A x i j).
  { intros x Hx i j Hi' Hj. unfold A, nbr_matrix, plus_diag, rowmat. rewrite HKv; auto. }
  assert (RE : regress_any ls knn hnsw (Univariate (lib_model gamma kv g K cur)) test train w targets =
    let! mean := (let! P := perturb (gp_noise g) Kin None in posterior_mean ls P Kc T) in
    let! v := (let! P := perturb (gp_noise g) Kin None in diagonal_variance ls P Kc (gp_Kout g) 1%nat) in
    Ok (mean, ndmap (Rmult (gp_var_scale g)) v)).
  { unfold regress_any. rewrite (row_count_ok _ _ D1). cbn [bind]. rewrite EG. cbn [bind fst made_regress_from_indices]. rewrite CW.
    unfold regress_from_indices. rewrite Ecw. cbn [bind]. rewrite Epw. cbn [bind]. rewrite ETT. cbn [bind mm_kernel mm_gp lib_model].
    rewrite EK. cbn [bind]. rewrite EKc. cbn [bind]. unfold gp_posterior_mean, gp_posterior_variance, gp_opt_variance.
    destruct (perturb (gp_noise g) Kin None) as [P|err]; cbn [bind]; [|reflexivity].
    destruct (posterior_mean ls P Kc T) as [m|err]; cbn [bind]; [|reflexivity].
    destruct (diagonal_variance ls P Kc (gp_Kout g) 1%nat) as [v|err]; reflexivity. }
  split.
  - intros NS.
    assert (NS' : forall x, (x < M)%nat -> nonsingular n (plus_diag (rowmat Kin x) (noise_at (gp_noise g) None x))).
    { intros x Hx. apply (nonsingular_ext n (A x)); auto. intros; symmetry; apply HKx; auto. }
    destruct (gp_mean_total ls EX (gp_noise g) None Kin Kc T M n ex NF SKi SKc ST NC NS') as (mean & Em & Sm & Hm').
    destruct (gp_var_total ls EX (gp_noise g) None Kin Kc (gp_Kout g) M n NF SKi SKc SK NS') as (v & Ev).
    rewrite RE, Em. cbn [bind]. rewrite Ev. cbn [bind]. eauto.
  - intros mean var E. rewrite RE in E.
    destruct (let! P := perturb (gp_noise g) Kin None in posterior_mean ls P Kc T) as [m|err] eqn:Em; cbn [bind] in E; [|discriminate].
    destruct (let! P := perturb (gp_noise g) Kin None in diagonal_variance ls P Kc (gp_Kout g) 1%nat) as [v|err] eqn:Ev; cbn [bind] in E; [|discriminate].
    assert (m = mean) by congruence. subst m. assert (EV : var = ndmap (Rmult (gp_var_scale g)) v) by congruence. subst var. clear E.
    destruct (gp_mean_inv ls EX (gp_noise g) None Kin Kc T M n ex mean NF SKi SKc ST NC Em) as [Sm Hm'].
    destruct (gp_var_inv ls EX (gp_noise g) None Kin Kc (gp_Kout g) M n v NF SKi SKc SK Ev) as [Sv Hv].
    split; [exact Sm|]. split; [exact Sv|]. intros x Hx. destruct (Hm' x Hx) as (NS & wv & W & V).
    assert (NSA : nonsingular n (A x)) by (apply (nonsingular_ext n (plus_diag (rowmat Kin x) (noise_at (gp_noise g) None x))); auto; apply HKx; auto).
    assert (SOL : forall wv, solves n (plus_diag (rowmat Kin x) (noise_at (gp_noise g) None x)) wv (rowvec Kc x) -> solves n (A x) wv (kc x)).
    { intros u Hu. apply (solves_ext n (plus_diag (rowmat Kin x) (noise_at (gp_noise g) None x))); [apply HKx; auto|].
      intros i Hi'. etransitivity; [exact (Hu i Hi')|]. unfold rowvec. apply HKc; auto. }
    split; [exact NSA|]. split.
    + destruct (Hv x Hx) as (_ & u & U & VE). cbn [ndmap at_]. rewrite VE, K1. f_equal. f_equal.
      rewrite <- (gsol_unique n (A x) (kc x) u (kc x) NSA (SOL u U)). unfold dot, rowvec. apply rsum_ext. intros j Hj. rewrite HKc by auto. reflexivity.
    + intros e He'. rewrite V by exact He'. rewrite <- (gsol_unique n (A x) (kc x) wv _ NSA (SOL wv W)). unfold dot. apply rsum_ext. intros j Hj. rewrite HTv by auto. reflexivity.
Qed.

Lemma params_cont_any en method kw w g K cur test train targets N M n ex mean var :
  lower method = "exact"%string -> euclidean_kw kw -> nn_init en (rows_of train) n method kw = Ok w -> (0 < n <= N /\ 0 < M)%nat ->
  dataset test M -> dataset train N -> ndim test = ndim train -> feature_count test = feature_count train ->
  kernel_usable K (feature_count train) cur -> continuous_special gamma kv -> shape targets = N :: ex -> no_coincidence ex [n] ->
  shape (gp_Kout g) = [] -> at_ (gp_Kout g) [] = 1 -> noise_fits (gp_noise g) M n ->
  regress_any ls knn hnsw (Univariate (lib_model gamma kv g K cur)) test train w targets = Ok (mean, var) ->
  forall eps, 0 < eps -> exists d, 0 < d /\ forall g' cur',
    values_close cur cur' d -> noise_close (gp_noise g) (gp_noise g') M n d -> Rabs (gp_var_scale g' - gp_var_scale g) < d ->
    noise_fits (gp_noise g') M n -> shape (gp_Kout g') = [] -> at_ (gp_Kout g') [] = 1 ->
    exists mean' var',
      regress_any ls knn hnsw (Univariate (lib_model gamma kv g' K cur')) test train w targets = Ok (mean', var') /\
      shape mean' = shape mean /\ shape var' = shape var /\
      forall x, (x < M)%nat -> Rabs (at_ var' [x] - at_ var [x]) < eps /\ forall e, inb ex e -> Rabs (at_ mean' (x :: e) - at_ mean (x :: e)) < eps.
Proof.
  intros Hm He Hi Hn D1 D2 ND FC OK CS HT NC SK K1 NF E.
  destruct (regress_ns en method kw w g K cur test train targets N M n ex Hm He Hi Hn D1 D2 ND FC OK HT NC SK K1 NF) as (NR & _ & V).
  destruct (V mean var E) as (Sm & Sv & V1). clear V. rename V1 into V. set (q := nbr knn hnsw w test) in *. set (F := feature_count train) in *.
  set (k := lk_cov gamma kv K F cur []) in *.
  destruct (scale_low (lk_def K) F cur []) as (m & M0 & SL); [apply OK|].
  destruct (inb_bound (N :: ex) (at_ targets)) as (Y & Y0 & YB).
  set (A0 := fun x => nbr_matrix k (gp_noise g) train q x) in *.
  set (c0 := fun x j => kcov k test train x (q x j)) in *.
  set (A' := fun (t : gp * (nat -> R)) x => nbr_matrix (lk_cov gamma kv K F (snd t) []) (gp_noise (fst t)) train q x).
  set (k' := fun (t : gp * (nat -> R)) x j => kcov (lk_cov gamma kv K F (snd t) []) test train x (q x j)).
  set (near := fun d (t : gp * (nat -> R)) =>
     values_close cur (snd t) d /\ noise_close (gp_noise g) (gp_noise (fst t)) M n d /\ Rabs (gp_var_scale (fst t) - gp_var_scale g) < d).
  assert (MON : forall d d' t, near d t -> d <= d' -> near d' t).
  { intros d d' t (H1 & H2 & H3) L. split; [intros l; specialize (H1 l); lra|]. split; [intros x i Hx Hi0; specialize (H2 x i Hx Hi0); lra|]. lra. }
  assert (TS : forall f, tends near (fun t => scale_of (lk_def K) (snd t) [] f) (scale_of (lk_def K) cur [] f)).
  { intros f eps EPS. exists eps. split; [exact EPS|]. intros t (H1 & _). apply (scale_of_close (lk_def K) _ _ eps f H1 EPS). }
  assert (TC : forall v, tends near (fun t => lk_cov gamma kv K F (snd t) [] v) (k v)).
  { intros v. unfold k. destruct OK as (O1 & O2 & O3 & O4). destruct K as [df|df sm p]; cbn [lk_def lk_cov] in *.
    - assert (CE : forall c1, rbf_cov df F c1 [] v = matern_value gamma kv Infinite 0 (sdist F (scale_of df c1 []) v)).
      { intros c1. cbn [matern_value]. unfold rbf_cov, gaussian, sdist. f_equal. f_equal. f_equal.
        rewrite <- Rsqr_pow2, Rsqr_sqrt; [reflexivity|]. apply rsum_nonneg. intros; apply pow2_ge_0. }
      rewrite CE. apply (tends_ext near MON (fun t => matern_value gamma kv Infinite 0 (sdist F (scale_of df (snd t) []) v)));
        [exists 1; split; [lra|]; intros; symmetry; apply CE|].
      apply (tends_matern_any near MON gamma kv Infinite F (fun _ => 0) (fun t => scale_of df (snd t) [])); [discriminate|exact O3|intros f _; apply TS].
    - unfold matern_cov, kw_or. cbn [dget].
      apply (tends_matern_any near MON gamma kv (formula_for p) F (fun t => snd t (nm_loc sm)) (fun t => scale_of df (snd t) [])); [|exact O3|intros f _; apply TS].
      intros _. split; [exact CS|]. split; [apply O4|]. intros eps EPS. exists eps. split; [exact EPS|]. intros t (H1 & _). apply H1. }
  assert (TK : forall x j, tends near (fun t => k' t x j) (c0 x j)) by (intros x j; apply TC).
  assert (TA : forall x i j, (x < M)%nat -> (i < n)%nat -> tends near (fun t => A' t x i j) (A0 x i j)).
  { intros x i j Hx Hi0. unfold A', A0, nbr_matrix, plus_diag. destruct (Nat.eqb i j).
    2:{ apply (tends_plus near MON); [apply TC|apply tends_const]. }
    apply (tends_plus near MON); [apply TC|]. intros eps EPS. exists eps. split; [exact EPS|]. intros t (_ & H2 & _). apply H2; auto. }
  assert (EN : forall x, (x < M)%nat -> eventually near (fun t => nonsingular n (A' t x))).
  { intros x Hx. apply (ev_nonsingular near MON n (fun t => A' t x) (A0 x)); [apply V; exact Hx|]. intros i j Hi0 _. apply TA; auto. }
  assert (TW : forall x l, (x < M)%nat -> (l < n)%nat -> tends near (fun t => gsol n (A' t x) (k' t x) l) (gsol n (A0 x) (c0 x) l)).
  { intros x l Hx Hl. apply (tends_solve_ns near MON n (fun t => A' t x) (fun t => k' t x) (fun t => gsol n (A' t x) (k' t x)) (A0 x) (c0 x)); auto.
    - apply V; exact Hx.
    - apply gsol_solves. apply V; exact Hx.
    - apply (ev_imp near _ _ (EN x Hx)). intros t H. apply gsol_solves. exact H. }
  assert (TG : tends near (fun t => gp_var_scale (fst t)) (gp_var_scale g)).
  { intros eps EPS. exists eps. split; [exact EPS|]. intros t (_ & _ & H3). exact H3. }
  assert (TV : forall x, (x < M)%nat -> tends near (fun t => gp_var_scale (fst t) * (1 - dot n (gsol n (A' t x) (k' t x)) (k' t x)))
     (gp_var_scale g * (1 - dot n (gsol n (A0 x) (c0 x)) (c0 x)))).
  { intros x Hx. apply (tends_mult near MON); [exact TG|]. apply (tends_minus near MON); [apply tends_const|].
    unfold dot. apply (tends_rsum near MON n (fun i t => gsol n (A' t x) (k' t x) i * k' t x i)). intros i Hi0. apply (tends_mult near MON); [apply TW; auto|apply TK]. }
  intros eps EPS. set (eta := eps / (2 * (1 + INR n * Y))).
  assert (NY : 0 <= INR n * Y) by (apply Rmult_le_pos; [apply pos_INR|exact Y0]).
  assert (ETA : 0 < eta) by (apply Rmult_lt_0_compat; [exact EPS|apply Rinv_0_lt_compat; lra]).
  assert (EV : eventually near (fun t => forall x, (x < M)%nat -> nonsingular n (A' t x) /\
      Rabs (gp_var_scale (fst t) * (1 - dot n (gsol n (A' t x) (k' t x)) (k' t x)) - gp_var_scale g * (1 - dot n (gsol n (A0 x) (c0 x)) (c0 x))) < eps /\
      forall l, (l < n)%nat -> Rabs (gsol n (A' t x) (k' t x) l - gsol n (A0 x) (c0 x) l) < eta)).
  { apply (ev_all near MON M). intros x Hx. apply (ev_and near MON); [apply EN; auto|]. apply (ev_and near MON); [apply TV; auto|].
    apply (ev_all near MON n (fun l t => Rabs (gsol n (A' t x) (k' t x) l - gsol n (A0 x) (c0 x) l) < eta)). intros l Hl. apply TW; auto. }
  assert (SMP : exists s, 0 < s /\ forall cur', values_close cur cur' s -> match K with LMatern _ sm _ => 0 < cur' (nm_loc sm) | LRbf _ => True end).
  { destruct OK as (_ & _ & _ & O4). destruct K as [df|df sm p]; [exists 1; split; [lra|auto]|]. destruct O4 as (_ & _ & O6).
    exists (cur (nm_loc sm)). split; [exact O6|]. intros cur' VC. specialize (VC (nm_loc sm)). apply Rabs_def2 in VC. lra. }
  destruct SMP as (s & S0 & SP).
  destruct EV as (d & D0 & EV). exists (Rmin d (Rmin m s)). split; [repeat apply Rmin_glb_lt; auto|].
  intros g' cur' VC NOC SCC NF' SK' K1'.
  assert (L1 : Rmin d (Rmin m s) <= d) by apply Rmin_l.
  assert (L2 : Rmin d (Rmin m s) <= m) by (eapply Rle_trans; [apply Rmin_r|apply Rmin_l]).
  assert (L3 : Rmin d (Rmin m s) <= s) by (eapply Rle_trans; [apply Rmin_r|apply Rmin_r]).
  assert (L0 : 0 < Rmin d (Rmin m s)) by (repeat apply Rmin_glb_lt; auto).
  assert (OK' : kernel_usable K F cur').
  { destruct OK as (O1 & O2 & O3 & O4). split; [exact O1|]. split; [exact O2|]. split.
    - intros f Hf. pose proof (scale_of_close (lk_def K) cur cur' _ f VC L0) as X. specialize (SL f Hf). apply Rabs_def2 in X. lra.
    - specialize (SP cur' (fun l => Rlt_le_trans _ _ _ (VC l) L3)). destruct K as [df|df sm p]; [exact O4|]. destruct O4 as (O5 & O6 & _). auto. }
  assert (NEAR : near d (g', cur')).
  { split; [intros l; specialize (VC l); cbn [fst snd]; lra|]. split; [intros x i Hx Hi0; specialize (NOC x i Hx Hi0); cbn [fst snd]; lra|]. cbn [fst]; lra. }
  destruct (regress_ns en method kw w g' K cur' test train targets N M n ex Hm He Hi Hn D1 D2 ND FC OK' HT NC SK' K1' NF') as (_ & X1 & X2).
  destruct X1 as (mean' & var' & E'); [intros x Hx; apply (EV _ NEAR x Hx)|].
  destruct (X2 mean' var' E') as (Sm' & Sv' & V'). clear X2. exists mean', var'. split; [exact E'|]. split; [congruence|]. split; [congruence|].
  intros x Hx. destruct (EV _ NEAR x Hx) as (_ & EV1 & EV2). destruct (V x Hx) as (_ & VA & VM). destruct (V' x Hx) as (_ & VA' & VM').
  split.
  - rewrite VA, VA'. exact EV1.
  - intros e Hie. rewrite VM, VM' by exact Hie. unfold dot. rewrite <- rsum_minus. eapply Rle_lt_trans; [apply rsum_abs|].
    apply Rle_lt_trans with (rsum n (fun _ => eta * Y)).
    + apply rsum_le. intros j Hj. rewrite <- Rmult_minus_distr_r, Rabs_mult.
      apply Rmult_le_compat; try apply Rabs_pos; [left; apply EV2; exact Hj|]. apply YB, inb_cons. split; [apply (NR x Hx); exact Hj|exact Hie].
    + rewrite rsum_const. unfold eta. apply Rmult_lt_reg_r with (2 * (1 + INR n * Y)); [lra|].
      replace (INR n * (eps / (2 * (1 + INR n * Y)) * Y) * (2 * (1 + INR n * Y))) with (eps * (INR n * Y)) by (field; lra). nra.
Qed.
End Any3.
