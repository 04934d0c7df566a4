(** Proofs about the dependence of predictions and of the training objective on the hyperparameters. *)
From Coq Require Import Lia Lra.
From Verif Require Import Base BaseFacts NdModel NdFacts RSum HyperModel NamedModel NamedSpec LinAlgModel LinAlgSpec LinAlgFacts Gauss
  GPModel NoiseModel MuyGPSModel GPSpec GPTheorems WellPosedProofs TensorModel TensorSpec TensorProofs KernelModel KernelSpec KernelProofs
  NeighborsModel NeighborsSpec NeighborsProofs FlowModel FlowSpec FlowProofs PointwiseSpec LibSpec LibProofs
  MultiModel DriverModel WorkModel WorkSpec WorkProofs WorkLemmas BestSpec BestProofs SimProofs LocalSpec LocalProofs FarSpec FarProofs SmoothSpec SmoothProofs ContSpec.
Local Open Scope R_scope.

Lemma rsum_abs n f : Rabs (rsum n f) <= rsum n (fun i => Rabs (f i)).
Proof.
  induction n as [|n IH]; cbn [rsum]; [rewrite Rabs_R0; lra|]. eapply Rle_trans; [apply Rabs_triang|]. lra.
Qed.

(** ** Limits along a shrinking family of neighbourhoods *)
Section Tends.
Context {T : Type}.
Variable near : R -> T -> Prop.
Hypothesis MON : forall d d' t, near d t -> d <= d' -> near d' t.

Definition eventually (P : T -> Prop) : Prop := exists d, 0 < d /\ forall t, near d t -> P t.
Definition tends (f : T -> R) (a : R) : Prop := forall eps, 0 < eps -> eventually (fun t => Rabs (f t - a) < eps).

Lemma ev_and P Q : eventually P -> eventually Q -> eventually (fun t => P t /\ Q t).
Proof.
  intros (d & D & H) (d' & D' & H'). exists (Rmin d d'). split; [apply Rmin_glb_lt; auto|]. intros t N.
  split; [apply H; apply (MON _ _ _ N), Rmin_l|apply H'; apply (MON _ _ _ N), Rmin_r].
Qed.
Lemma ev_imp (P Q : T -> Prop) : eventually P -> (forall t, P t -> Q t) -> eventually Q.
Proof. intros (d & D & H) I. exists d. split; auto. Qed.
Lemma ev_all m (P : nat -> T -> Prop) : (forall i, (i < m)%nat -> eventually (P i)) -> eventually (fun t => forall i, (i < m)%nat -> P i t).
Proof.
  induction m as [|m IH]; intros H; [exists 1; split; [lra|intros; lia]|].
  apply (ev_imp _ _ (ev_and _ _ (IH (fun i Hi => H i (Nat.lt_lt_succ_r _ _ Hi))) (H m (Nat.lt_succ_diag_r m)))).
  intros t [A B] i Hi. destruct (Nat.eq_dec i m) as [->|]; [exact B|apply A; lia].
Qed.
Lemma tends_const a : tends (fun _ => a) a.
Proof. intros eps E. exists 1. split; [lra|]. intros t _. replace (a - a) with 0 by ring. rewrite Rabs_R0. exact E. Qed.
Lemma tends_ext f g a : eventually (fun t => f t = g t) -> tends f a -> tends g a.
Proof. intros H F eps E. apply (ev_imp _ _ (ev_and _ _ H (F eps E))). intros t [A B]. rewrite <- A. exact B. Qed.
Lemma tends_plus f g a b : tends f a -> tends g b -> tends (fun t => f t + g t) (a + b).
Proof.
  intros F G eps E. apply (ev_imp _ _ (ev_and _ _ (F (eps / 2) ltac:(lra)) (G (eps / 2) ltac:(lra)))). intros t [A B].
  replace (f t + g t - (a + b)) with ((f t - a) + (g t - b)) by ring. eapply Rle_lt_trans; [apply Rabs_triang|lra].
Qed.
Lemma tends_comp phi f a : continuity_pt phi a -> tends f a -> tends (fun t => phi (f t)) (phi a).
Proof.
  intros C F eps E. destruct (C eps E) as (al & A0 & H). cbn in H. unfold R_dist in H.
  apply (ev_imp _ _ (F al A0)). intros t A. destruct (Req_dec (f t) a) as [->|NE].
  - replace (phi a - phi a) with 0 by ring. rewrite Rabs_R0. exact E.
  - apply H. split; [|exact A]. split; [exact Logic.I|]. intros X. apply NE. symmetry. exact X.
Qed.
Lemma tends_scal c f a : tends f a -> tends (fun t => c * f t) (c * a).
Proof. intros F. apply (tends_comp (fun r => c * r)); [reg|exact F]. Qed.
Lemma tends_minus f g a b : tends f a -> tends g b -> tends (fun t => f t - g t) (a - b).
Proof.
  intros F G. replace (a - b) with (a + -1 * b) by ring. apply (tends_ext (fun t => f t + -1 * g t)); [|apply tends_plus; [exact F|apply tends_scal; exact G]].
  exists 1. split; [lra|]. intros; ring.
Qed.
Lemma tends_sq f a : tends f a -> tends (fun t => f t ^ 2) (a ^ 2).
Proof. intros F. apply (tends_comp (fun r => r ^ 2)); [reg|exact F]. Qed.
Lemma tends_mult f g a b : tends f a -> tends g b -> tends (fun t => f t * g t) (a * b).
Proof.
  intros F G. replace (a * b) with (/ 4 * ((a + b) ^ 2 - (a - b) ^ 2)) by field.
  apply (tends_ext (fun t => / 4 * ((f t + g t) ^ 2 - (f t - g t) ^ 2))); [exists 1; split; [lra|]; intros; field|].
  apply tends_scal, tends_minus; apply tends_sq; [apply tends_plus|apply tends_minus]; auto.
Qed.
Lemma tends_inv f a : a <> 0 -> tends f a -> tends (fun t => / f t) (/ a).
Proof. intros N F. apply (tends_comp (fun r => / r)); [|exact F]. apply (continuity_pt_inv id a); [reg|exact N]. Qed.
Lemma tends_div f g a b : b <> 0 -> tends f a -> tends g b -> tends (fun t => f t / g t) (a / b).
Proof. intros N F G. apply tends_mult; [exact F|apply tends_inv; auto]. Qed.
Lemma tends_opp f a : tends f a -> tends (fun t => - f t) (- a).
Proof. intros F. apply (tends_comp (fun r => - r)); [reg|exact F]. Qed.
Lemma tends_exp f a : tends f a -> tends (fun t => exp (f t)) (exp a).
Proof. intros F. apply (tends_comp exp); [reg|exact F]. Qed.
Lemma tends_sqrt f a : 0 <= a -> tends f a -> tends (fun t => sqrt (f t)) (sqrt a).
Proof. intros A F. apply (tends_comp sqrt); [apply continuity_pt_sqrt; exact A|exact F]. Qed.
Lemma tends_ln f a : 0 < a -> tends f a -> tends (fun t => ln (f t)) (ln a).
Proof. intros A F. apply (tends_comp ln); [|exact F]. apply derivable_continuous_pt. exists (/ a). apply derivable_pt_lim_ln. exact A. Qed.
Lemma tends_rsum n (f : nat -> T -> R) (a : nat -> R) : (forall i, (i < n)%nat -> tends (f i) (a i)) -> tends (fun t => rsum n (fun i => f i t)) (rsum n a).
Proof.
  induction n as [|n IH]; intros H; cbn [rsum]; [apply tends_const|]. apply tends_plus; [apply IH; intros i Hi; apply H; lia|apply H; lia].
Qed.
Lemma tends_within f a d : tends f a -> 0 < d -> eventually (fun t => Rabs (f t - a) <= d).
Proof. intros F D. apply (ev_imp _ _ (F d D)). intros; lra. Qed.
Lemma tends_pos f a : 0 < a -> tends f a -> eventually (fun t => 0 < f t).
Proof. intros A F. apply (ev_imp _ _ (F a A)). intros t H. apply Rabs_def2 in H. lra. Qed.

(** Solutions of nearby coercive systems are close. *)
Lemma coercive_near n A0 A c d : coercive n A0 c -> (forall i j, (i < n)%nat -> (j < n)%nat -> Rabs (A i j - A0 i j) <= d) ->
  coercive n A (c - INR n * (INR n * d)).
Proof.
  intros CO H v. pose proof (CO v) as Q. set (V := rsum n (fun i => v i ^ 2)) in *.
  assert (V0 : 0 <= V) by (apply rsum_nonneg; intros; apply pow2_ge_0).
  assert (B : Rabs (quad n (fun i j => A i j - A0 i j) v) <= INR n * (INR n * (d * V))).
  { unfold quad. eapply Rle_trans; [apply rsum_abs|]. rewrite <- rsum_const. apply rsum_le. intros i Hi.
    eapply Rle_trans; [apply rsum_abs|]. rewrite <- rsum_const. apply rsum_le. intros j Hj.
    replace (v i * (A i j - A0 i j) * v j) with ((A i j - A0 i j) * (v i * v j)) by ring. rewrite Rabs_mult.
    apply Rmult_le_compat; try apply Rabs_pos; [apply H; auto|apply sq_prod_le; auto]. }
  assert (E : quad n A v = quad n A0 v + quad n (fun i j => A i j - A0 i j) v).
  { unfold quad. rewrite <- rsum_plus. apply rsum_ext. intros i Hi. rewrite <- rsum_plus. apply rsum_ext. intros j Hj. ring. }
  rewrite E. pose proof (Rle_abs (- quad n (fun i j => A i j - A0 i j) v)) as X. rewrite Rabs_Ropp in X.
  replace ((c - INR n * (INR n * d)) * V) with (c * V - INR n * (INR n * (d * V))) by ring. lra.
Qed.

Lemma tends_solve n (A : T -> nat -> nat -> R) (k w : T -> nat -> R) A0 k0 w0 c : 0 < c -> coercive n A0 c -> solves n A0 w0 k0 ->
  (forall i j, (i < n)%nat -> (j < n)%nat -> tends (fun t => A t i j) (A0 i j)) -> (forall i, (i < n)%nat -> tends (fun t => k t i) (k0 i)) ->
  eventually (fun t => solves n (A t) (w t) (k t)) -> forall l, (l < n)%nat -> tends (fun t => w t l) (w0 l).
Proof.
  intros C0 CO S0 TA TK SO l Hl eps EPS.
  set (N := INR n). assert (N0 : 0 <= N) by apply pos_INR.
  set (B := 1 + rsum n (fun i => Rabs (k0 i))).
  assert (KB : forall i, (i < n)%nat -> Rabs (k0 i) + 1 <= B).
  { intros i Hi. unfold B. pose proof (rsum_term_le n (fun i => Rabs (k0 i)) i (fun i _ => Rabs_pos (k0 i)) Hi). cbn beta in *. lra. }
  assert (B1 : 1 <= B) by (pose proof (KB l Hl); pose proof (Rabs_pos (k0 l)); lra).
  set (W := 2 * (1 + N) * B / c). assert (W0 : 0 <= W) by (unfold W; repeat apply Rmult_le_pos; try lra; left; apply Rinv_0_lt_compat; exact C0).
  (* [d]: the size of the perturbation that is small enough *)
  set (d := Rmin 1 (Rmin (c / (2 * (1 + N * N))) (eps * c / (2 * (1 + N) * (1 + N * W))))).
  assert (NN : 0 <= N * N) by (apply Rmult_le_pos; auto). assert (NW : 0 <= N * W) by (apply Rmult_le_pos; auto).
  assert (P1 : 0 < 2 * (1 + N * N)) by lra. assert (P2 : 0 < 2 * (1 + N) * (1 + N * W)) by (apply Rmult_lt_0_compat; lra).
  assert (D0 : 0 < d).
  { unfold d. repeat apply Rmin_glb_lt; [lra| |]; apply Rmult_lt_0_compat; try (apply Rinv_0_lt_compat; assumption); [exact C0|apply Rmult_lt_0_compat; auto]. }
  assert (D1 : d <= 1) by apply Rmin_l.
  assert (D2 : N * (N * d) <= c / 2).
  { assert (X : d <= c / (2 * (1 + N * N))) by (unfold d; eapply Rle_trans; [apply Rmin_r|apply Rmin_l]).
    apply (Rmult_le_compat_l (2 * (1 + N * N))) in X; [|lra]. replace (2 * (1 + N * N) * (c / (2 * (1 + N * N)))) with c in X by (field; lra).
    replace (N * (N * d)) with (N * N * d) by ring. nra. }
  assert (D3 : N * (d * (1 + N * W)) / c < eps).
  { assert (X : d <= eps * c / (2 * (1 + N) * (1 + N * W))) by (unfold d; eapply Rle_trans; [apply Rmin_r|apply Rmin_r]).
    apply (Rmult_le_compat_l (2 * (1 + N) * (1 + N * W))) in X; [|lra].
    replace (2 * (1 + N) * (1 + N * W) * (eps * c / (2 * (1 + N) * (1 + N * W)))) with (eps * c) in X by (field; lra).
    apply Rmult_lt_reg_r with c; [exact C0|]. replace (N * (d * (1 + N * W)) / c * c) with (N * (d * (1 + N * W))) by (field; lra).
    assert (Y : 0 < d * (1 + N * W)) by (apply Rmult_lt_0_compat; lra). nra. }
  assert (EA : eventually (fun t => forall i, (i < n)%nat -> forall j, (j < n)%nat -> Rabs (A t i j - A0 i j) <= d)).
  { apply (ev_all n). intros i Hi. apply (ev_all n). intros j Hj. apply (tends_within (fun t => A t i j)); auto. }
  assert (EK : eventually (fun t => forall i, (i < n)%nat -> Rabs (k t i - k0 i) <= d)).
  { apply (ev_all n). intros i Hi. apply (tends_within (fun t => k t i)); auto. }
  apply (ev_imp _ _ (ev_and _ _ SO (ev_and _ _ EA EK))). clear - C0 CO S0 N0 KB B1 W0 D0 D1 D2 D3 Hl NN NW.
  intros t (S & HA & HK).
  pose proof (coercive_near n A0 (A t) c d CO (fun i j Hi Hj => HA i Hi j Hj)) as CA. fold N in CA.
  assert (CA' : coercive n (A t) (c / 2)).
  { intros v. eapply Rle_trans; [|apply CA]. apply Rmult_le_compat_r; [apply rsum_nonneg; intros; apply pow2_ge_0|lra]. }
  destruct (coercive_weights n (A t) (k t) (w t) (c / 2) ltac:(lra) CA' S) as (_ & W2 & _).
  assert (WB : forall j, (j < n)%nat -> Rabs (w t j) <= W).
  { intros j Hj. apply Rsqr_incr_0_var; [|exact W0]. rewrite <- Rsqr_abs, !Rsqr_pow2.
    eapply Rle_trans; [apply (rsum_term_le n (fun i => w t i ^ 2) j (fun i _ => pow2_ge_0 (w t i)) Hj)|].
    apply Rmult_le_reg_l with ((c / 2) ^ 2); [apply pow_lt; lra|]. eapply Rle_trans; [exact W2|].
    apply Rle_trans with (N * B ^ 2).
    - unfold N. rewrite <- rsum_const. apply rsum_le. intros i Hi. rewrite <- pow2_abs. apply pow_incr. split; [apply Rabs_pos|].
      pose proof (HK i Hi). pose proof (KB i Hi). replace (k t i) with ((k t i - k0 i) + k0 i) by ring.
      eapply Rle_trans; [apply Rabs_triang|]. lra.
    - replace ((c / 2) ^ 2 * W ^ 2) with ((1 + N) ^ 2 * B ^ 2) by (unfold W; field; lra).
      apply Rmult_le_compat_r; [apply pow2_ge_0|]. cbn [pow]. nra. }
  set (k2 := fun i => rsum n (fun j => A0 i j * w t j)).
  assert (S2 : solves n A0 (w t) k2) by (intros i Hi; reflexivity).
  assert (K2 : forall i, (i < n)%nat -> Rabs (k2 i - k0 i) <= d * (1 + N * W)).
  { intros i Hi. replace (k2 i - k0 i) with ((k t i - k0 i) + (k2 i - k t i)) by ring. eapply Rle_trans; [apply Rabs_triang|].
    rewrite Rmult_plus_distr_l, Rmult_1_r. apply Rplus_le_compat; [apply HK; exact Hi|].
    rewrite <- (S i Hi). unfold k2. rewrite <- rsum_minus. eapply Rle_trans; [apply rsum_abs|].
    replace (d * (N * W)) with (N * (d * W)) by ring. unfold N. rewrite <- rsum_const. apply rsum_le. intros j Hj.
    replace (A0 i j * w t j - A t i j * w t j) with (- (A t i j - A0 i j) * w t j) by ring. rewrite Rabs_mult, Rabs_Ropp.
    apply Rmult_le_compat; try apply Rabs_pos; [apply HA|apply WB]; auto. }
  assert (DW : 0 <= d * (1 + N * W)) by (apply Rmult_le_pos; lra).
  pose proof (kriging_lip n A0 c (w t) w0 k2 k0 (fun j => delta l j) (d * (1 + N * W)) 1 C0 CO S2 S0 DW ltac:(lra) K2) as L.
  assert (DL : forall i, (i < n)%nat -> Rabs (delta l i) <= 1).
  { intros i _. unfold delta. destruct (Nat.eqb l i); rewrite ?Rabs_R0, ?Rabs_R1; lra. }
  specialize (L DL). rewrite Rmult_1_r in L. fold N in L.
  assert (DE : forall u, dot n u (fun j => delta l j) = u l).
  { intros u. unfold dot. rewrite (rsum_ext n _ (fun j => delta l j * u j)) by (intros; ring). apply rsum_delta_l. exact Hl. }
  rewrite !DE in L. eapply Rle_lt_trans; [exact L|exact D3].
Qed.

(** ** The kernels *)
Lemma tends_matern gamma kv f nu (nu' r : T -> R) a : f <> General -> tends r a -> tends (fun t => matern_value gamma kv f (nu' t) (r t)) (matern_value gamma kv f nu a).
Proof.
  intros N H. destruct f; try (exfalso; apply N; reflexivity); cbn [matern_value].
  - unfold matern_half. apply tends_exp, tends_opp. exact H.
  - unfold matern_three_halves. apply tends_mult; [apply tends_plus; [apply tends_const|apply tends_scal; exact H]|apply tends_exp, tends_opp, tends_scal; exact H].
  - unfold matern_five_halves. apply tends_mult; [|apply tends_exp, tends_opp, tends_scal; exact H].
    apply tends_plus; [apply tends_plus; [apply tends_const|apply tends_scal; exact H]|].
    apply tends_div; [lra|apply tends_scal, tends_sq; exact H|apply tends_const].
  - unfold gaussian. apply tends_exp. apply tends_div; [lra|apply tends_opp, tends_sq; exact H|apply tends_const].
Qed.
Lemma tends_sdist F (l : T -> nat -> R) l0 v : (forall f, (f < F)%nat -> 0 < l0 f) -> (forall f, (f < F)%nat -> tends (fun t => l t f) (l0 f)) ->
  tends (fun t => sdist F (l t) v) (sdist F l0 v).
Proof.
  intros P H. unfold sdist, scaled_sqdist. apply tends_sqrt; [apply rsum_nonneg; intros; apply pow2_ge_0|].
  apply (tends_rsum F (fun f t => ((v f - 0) / l t f) ^ 2)). intros f Hf. apply tends_sq, tends_div; [apply Rgt_not_eq, P; exact Hf|apply tends_const|apply H; exact Hf].
Qed.
End Tends.

Lemma lk_matern gamma kv K F cur kw v : exists f nu, lk_cov gamma kv K F cur kw v = matern_value gamma kv f nu (sdist F (scale_of (lk_def K) cur kw) v) /\
  f = match K with LRbf _ => Infinite | LMatern _ _ p => formula_for p end.
Proof.
  destruct K as [d|d sm p]; cbn [lk_cov lk_def].
  - exists Infinite, 0. split; [|reflexivity]. cbn [matern_value]. unfold rbf_cov, gaussian, sdist. f_equal. f_equal. f_equal.
    rewrite <- Rsqr_pow2, Rsqr_sqrt; [reflexivity|]. apply rsum_nonneg. intros; apply pow2_ge_0.
  - eexists _, _. split; reflexivity.
Qed.
Lemma matern_nu gamma kv f nu nu' r : f <> General -> matern_value gamma kv f nu r = matern_value gamma kv f nu' r.
Proof. intros N. destruct f; try reflexivity. exfalso. apply N. reflexivity. Qed.

Lemma scale_of_close d cur cur' e f : values_close cur cur' e -> 0 < e -> Rabs (scale_of d cur' [] f - scale_of d cur [] f) < e.
Proof.
  intros VC E. destruct d as [m nm|m nm|m v]; cbn [scale_of]; unfold kw_or; cbn [dget]; try apply VC.
  destruct (Nat.lt_ge_cases f (List.length (v_elems v))) as [L|L].
  - set (dflt := mkNamed EmptyString O).
    rewrite (nth_indep (map (fun e => cur' (nm_loc e)) (v_elems v)) 0 (cur' (nm_loc dflt))) by (rewrite map_length; exact L).
    rewrite (nth_indep (map (fun e => cur (nm_loc e)) (v_elems v)) 0 (cur (nm_loc dflt))) by (rewrite map_length; exact L).
    rewrite (map_nth (fun e => cur' (nm_loc e))), (map_nth (fun e => cur (nm_loc e))). apply VC.
  - rewrite !nth_overflow by (rewrite map_length; exact L). rewrite Rminus_0_r, Rabs_R0. exact E.
Qed.

Lemma sound_robust m train N M n : sound_noise m train N M n -> exists nu, 0 < nu /\ robust m nu train N M n.
Proof.
  intros [P|[P D]].
  - destruct (finite_gap M (fun x d => forall i, (i < n)%nat -> d <= noise_at m None x i)) as (nu & N0 & H).
    + intros x d d' H L i Hi. specialize (H i Hi). lra.
    + intros x Hx. apply (finite_gap n (fun i d => d <= noise_at m None x i)); [intros; lra|]. intros i Hi. exists (noise_at m None x i). split; [apply P; auto|lra].
    + exists nu. split; [exact N0|]. left. intros x i Hx Hi. apply H; auto.
  - exists 1. split; [lra|]. right. split; [exact P|exact D].
Qed.

Lemma inb_bound ex : forall f : list nat -> R, exists Y, 0 <= Y /\ forall e, inb ex e -> Rabs (f e) <= Y.
Proof.
  induction ex as [|m ex IH]; intros f.
  - exists (Rabs (f [])). split; [apply Rabs_pos|]. intros e I. apply inb_inv_nil in I. subst e. lra.
  - induction m as [|m IM].
    + exists 0. split; [lra|]. intros e H. apply inb_inv_cons in H as (a & e' & _ & H & _). lia.
    + destruct IM as (Y & Y0 & HY). destruct (IH (fun e => f (m :: e))) as (Z & Z0 & HZ). exists (Y + Z). split; [lra|].
      intros e0 H. apply inb_inv_cons in H as (a & e & -> & I1 & I2). destruct (Nat.eq_dec a m) as [->|NE].
      * specialize (HZ e I2). lra.
      * assert (X : Rabs (f (a :: e)) <= Y) by (apply HY, inb_cons; split; [lia|exact I2]). lra.
Qed.

Section Params.
Variables (gamma : R -> R) (kv : R -> R -> R).
Variable ls : lsolver.
Hypothesis EX : exact_solver ls.
Variable knn : dict nnval -> list point -> point -> nat -> list (nat * R).
Variable hnsw : nnval -> list point -> point -> nat -> list (nat * R).
Variable dist : dict nnval -> point -> point -> R.
Hypothesis Hsk : sklearn_ok knn dist.

Lemma params_cont en method kw w g K cur test train targets N M n ex :
  lower method = "exact"%string -> euclidean_kw kw -> nn_init en (rows_of train) n method kw = Ok w -> (0 < n <= N /\ 0 < M)%nat ->
  dataset test M -> dataset train N -> ndim test = ndim train -> feature_count test = feature_count train ->
  lk_ok K (feature_count train) cur [] -> shape targets = N :: ex -> no_coincidence ex [n] ->
  shape (gp_Kout g) = [] -> at_ (gp_Kout g) [] = 1 -> 0 <= gp_var_scale g -> noise_fits (gp_noise g) M n -> sound_noise (gp_noise g) train N M n ->
  exists mean var,
    regress_any ls knn hnsw (Univariate (lib_model gamma kv g K cur)) test train w targets = Ok (mean, var) /\
    forall eps, 0 < eps -> exists d, 0 < d /\ forall g' cur',
      values_close cur cur' d -> noise_close (gp_noise g) (gp_noise g') M n d -> Rabs (gp_var_scale g' - gp_var_scale g) < d ->
      noise_at_least (gp_noise g') 0 M n -> noise_fits (gp_noise g') M n -> shape (gp_Kout g') = [] -> at_ (gp_Kout g') [] = 1 -> 0 <= gp_var_scale g' ->
      exists mean' var',
        regress_any ls knn hnsw (Univariate (lib_model gamma kv g' K cur')) test train w targets = Ok (mean', var') /\
        forall x, (x < M)%nat -> Rabs (at_ var' [x] - at_ var [x]) < eps /\ forall e, inb ex e -> Rabs (at_ mean' (x :: e) - at_ mean (x :: e)) < eps.
Proof.
  intros Hm He Hi Hn D1 D2 ND FC OK HT NC SK K1 SC NF SN.
  destruct (regress_any_nbr gamma kv ls EX knn hnsw dist Hsk en method kw w g K cur [] test train targets N M n ex)
    as (mean & var & E & _ & _ & NS & V); auto.
  exists mean, var. split; [exact E|]. set (q := nbr knn hnsw w test) in *. set (F := feature_count train) in *.
  set (k := lk_cov gamma kv K F cur []) in *.
  (* the unperturbed weights *)
  assert (SOL : exists u0, forall x, (x < M)%nat -> solves n (nbr_matrix k (gp_noise g) train q x) (u0 x) (fun j => kcov k test train x (q x j))).
  { exists (fun x i => match gauss n 1%nat (nbr_matrix k (gp_noise g) train q x) (fun j _ => kcov k test train x (q x j)) with Some X => X i O | None => 0 end).
    intros x Hx. destruct (proj1 (proj2 gauss_exact n 1%nat (nbr_matrix k (gp_noise g) train q x) (fun j _ => kcov k test train x (q x j))) (NS x Hx)) as (X & EX').
    rewrite EX'. exact (proj1 gauss_exact n 1%nat _ _ X EX' O Nat.lt_0_1). }
  destruct SOL as (u0 & U0).
  destruct (sound_robust _ _ _ _ _ SN) as (nu & NU & RB).
  destruct (robust_coercive gamma kv K cur train N nu OK NU) as (c & C0 & CO). fold F k in CO.
  destruct (scale_low (lk_def K) F cur []) as (m & M0 & SL); [apply OK|].
  destruct (inb_bound (N :: ex) (at_ targets)) as (Y & Y0 & YB).
  (* perturbed models with their weights *)
  set (A' := fun (t : gp * (nat -> R) * (nat -> nat -> R)) x => nbr_matrix (lk_cov gamma kv K F (snd (fst t)) []) (gp_noise (fst (fst t))) train q x).
  set (k' := fun (t : gp * (nat -> R) * (nat -> nat -> R)) x j => kcov (lk_cov gamma kv K F (snd (fst t)) []) test train x (q x j)).
  set (near := fun d (t : gp * (nat -> R) * (nat -> nat -> R)) =>
     values_close cur (snd (fst t)) d /\ noise_close (gp_noise g) (gp_noise (fst (fst t))) M n d /\ Rabs (gp_var_scale (fst (fst t)) - gp_var_scale g) < d /\
     forall x, (x < M)%nat -> solves n (A' t x) (snd t x) (k' t x)).
  assert (MON : forall d d' t, near d t -> d <= d' -> near d' t).
  { intros d d' t (H1 & H2 & H3 & H4) L. split; [intros l; specialize (H1 l); lra|]. split; [intros x i Hx Hi0; specialize (H2 x i Hx Hi0); lra|].
    split; [lra|exact H4]. }
  assert (TS : forall f, tends near (fun t => scale_of (lk_def K) (snd (fst t)) [] f) (scale_of (lk_def K) cur [] f)).
  { intros f eps EPS. exists eps. split; [exact EPS|]. intros t (H1 & _). apply (scale_of_close (lk_def K) _ _ eps f H1 EPS). }
  assert (TC : forall v, tends near (fun t => lk_cov gamma kv K F (snd (fst t)) [] v) (k v)).
  { intros v. set (fm := match K with LRbf _ => Infinite | LMatern _ _ p => formula_for p end).
    assert (G : fm <> General) by (unfold fm; destruct OK as (_ & _ & _ & O4); destruct K; [discriminate|apply O4]).
    assert (CE : forall c0, lk_cov gamma kv K F c0 [] v = matern_value gamma kv fm 0 (sdist F (scale_of (lk_def K) c0 []) v)).
    { intros c0. destruct (lk_matern gamma kv K F c0 [] v) as (f & nu0 & -> & Ef). fold fm in Ef. rewrite Ef. apply matern_nu. exact G. }
    unfold k. rewrite CE. apply (tends_ext near MON (fun t => matern_value gamma kv fm 0 (sdist F (scale_of (lk_def K) (snd (fst t)) []) v)));
      [exists 1; split; [lra|]; intros; symmetry; apply CE|].
    apply (tends_matern near MON gamma kv fm 0 (fun _ => 0)); [exact G|].
    apply (tends_sdist near MON F (fun t => scale_of (lk_def K) (snd (fst t)) [])); [apply OK|]. intros f _. apply TS. }
  assert (TK : forall x j, tends near (fun t => k' t x j) (kcov k test train x (q x j))) by (intros x j; apply TC).
  assert (TA : forall x i j, (x < M)%nat -> (i < n)%nat -> tends near (fun t => A' t x i j) (nbr_matrix k (gp_noise g) train q x i j)).
  { intros x i j Hx Hi0. unfold A', nbr_matrix, plus_diag. destruct (Nat.eqb i j).
    2:{ apply (tends_plus near MON); [apply TC|apply tends_const]. }
    apply (tends_plus near MON); [apply TC|]. intros eps EPS. exists eps. split; [exact EPS|]. intros t (_ & H2 & _). apply H2; auto. }
  assert (TW : forall x l, (x < M)%nat -> (l < n)%nat -> tends near (fun t => snd t x l) (u0 x l)).
  { intros x l Hx Hl. apply (tends_solve near MON n (fun t => A' t x) (fun t => k' t x) (fun t => snd t x)
      (nbr_matrix k (gp_noise g) train q x) (fun j => kcov k test train x (q x j)) (u0 x) c C0); auto.
    - destruct (V x Hx) as (NR & _). apply (CO (gp_noise g) M n q x RB Hx); apply NR.
    - exists 1. split; [lra|]. intros t (_ & _ & _ & H4). apply H4. exact Hx. }
  assert (TG : tends near (fun t => gp_var_scale (fst (fst t))) (gp_var_scale g)).
  { intros eps EPS. exists eps. split; [exact EPS|]. intros t (_ & _ & H3 & _). exact H3. }
  assert (TV : forall x, (x < M)%nat -> tends near (fun t => gp_var_scale (fst (fst t)) * (1 - dot n (snd t x) (k' t x)))
     (gp_var_scale g * (1 - dot n (u0 x) (fun j => kcov k test train x (q x j))))).
  { intros x Hx. apply (tends_mult near MON); [exact TG|]. apply (tends_minus near MON); [apply tends_const|].
    unfold dot. apply (tends_rsum near MON n (fun i t => snd t x i * k' t x i)). intros i Hi0. apply (tends_mult near MON); [apply TW; auto|apply TK]. }
  intros eps EPS. set (eta := eps / (2 * (1 + INR n * Y))).
  assert (NY : 0 <= INR n * Y) by (apply Rmult_le_pos; [apply pos_INR|exact Y0]).
  assert (ETA : 0 < eta) by (apply Rmult_lt_0_compat; [exact EPS|apply Rinv_0_lt_compat; lra]).
  assert (EV : eventually near (fun t => forall x, (x < M)%nat ->
      Rabs (gp_var_scale (fst (fst t)) * (1 - dot n (snd t x) (k' t x)) - gp_var_scale g * (1 - dot n (u0 x) (fun j => kcov k test train x (q x j)))) < eps /\
      forall l, (l < n)%nat -> Rabs (snd t x l - u0 x l) < eta)).
  { apply (ev_all near MON M). intros x Hx. apply (ev_and near MON); [apply TV; auto|].
    apply (ev_all near MON n (fun l t => Rabs (snd t x l - u0 x l) < eta)). intros l Hl. apply TW; auto. }
  destruct EV as (d & D0 & EV). exists (Rmin d (Rmin m nu)). split; [repeat apply Rmin_glb_lt; auto|].
  intros g' cur' VC NOC SCC NN NF' SK' K1' SC'.
  assert (L1 : Rmin d (Rmin m nu) <= d) by apply Rmin_l.
  assert (L2 : Rmin d (Rmin m nu) <= m) by (eapply Rle_trans; [apply Rmin_r|apply Rmin_l]).
  assert (L3 : Rmin d (Rmin m nu) <= nu) by (eapply Rle_trans; [apply Rmin_r|apply Rmin_r]).
  assert (L0 : 0 < Rmin d (Rmin m nu)) by (repeat apply Rmin_glb_lt; auto).
  assert (OK' : lk_ok K F cur' []).
  { destruct OK as (O1 & O2 & O3 & O4). split; [exact O1|]. split; [exact O2|]. split; [|exact O4]. intros f Hf.
    pose proof (scale_of_close (lk_def K) cur cur' _ f VC L0) as X. specialize (SL f Hf). apply Rabs_def2 in X. lra. }
  assert (SN' : sound_noise (gp_noise g') train N M n).
  { destruct RB as [P|[_ D]]; [left|right; split; [exact NN|exact D]]. intros x i Hx Hi0. specialize (P x i Hx Hi0). specialize (NOC x i Hx Hi0).
    apply Rabs_def2 in NOC. lra. }
  destruct (regress_any_nbr gamma kv ls EX knn hnsw dist Hsk en method kw w g' K cur' [] test train targets N M n ex)
    as (mean' & var' & E' & _ & _ & NS' & V'); auto.
  exists mean', var'. split; [exact E'|]. fold q F in V', NS'.
  set (u' := fun x i => match gauss n 1%nat (nbr_matrix (lk_cov gamma kv K F cur' []) (gp_noise g') train q x)
               (fun j _ => kcov (lk_cov gamma kv K F cur' []) test train x (q x j)) with Some X => X i O | None => 0 end).
  assert (U' : forall x, (x < M)%nat -> solves n (nbr_matrix (lk_cov gamma kv K F cur' []) (gp_noise g') train q x) (u' x)
     (fun j => kcov (lk_cov gamma kv K F cur' []) test train x (q x j))).
  { intros x Hx. unfold u'. destruct (proj1 (proj2 gauss_exact n 1%nat (nbr_matrix (lk_cov gamma kv K F cur' []) (gp_noise g') train q x)
      (fun j _ => kcov (lk_cov gamma kv K F cur' []) test train x (q x j))) (NS' x Hx)) as (X & EX').
    rewrite EX'. exact (proj1 gauss_exact n 1%nat _ _ X EX' O Nat.lt_0_1). }
  assert (NEAR : near d (g', cur', u')).
  { split; [intros l; specialize (VC l); cbn [fst snd]; lra|]. split; [intros x i Hx Hi0; specialize (NOC x i Hx Hi0); cbn [fst snd]; lra|].
    split; [cbn [fst]; lra|]. exact U'. }
  intros x Hx. destruct (EV _ NEAR x Hx) as [EV1 EV2]. cbn [fst snd] in EV1, EV2. unfold k' in EV1. cbn [fst snd] in EV1.
  destruct (V x Hx) as (NR & Mx & (wv & W & ->) & _). destruct (V' x Hx) as (_ & Mx' & (wv' & W' & ->) & _).
  assert (UQ : forall (m0 : noise_model) (k0 : (nat -> R) -> R) a b rhs y, nonsingular n (nbr_matrix k0 m0 train q x) ->
     solves n (nbr_matrix k0 m0 train q x) a rhs -> solves n (nbr_matrix k0 m0 train q x) b rhs -> dot n a y = dot n b y).
  { intros m0 k0 a b rhs y NS0 SA SB. unfold dot. apply rsum_ext. intros i Hi0. rewrite (solves_unique n _ a b rhs NS0 SA SB i Hi0). reflexivity. }
  split.
  - rewrite (UQ _ _ wv (u0 x) _ _ (NS x Hx) W (U0 x Hx)), (UQ _ _ wv' (u' x) _ _ (NS' x Hx) W' (U' x Hx)). exact EV1.
  - intros e Hie. destruct (Mx e Hie) as (a & SA & ->). destruct (Mx' e Hie) as (a' & SA' & ->).
    rewrite (UQ _ _ a (u0 x) _ _ (NS x Hx) SA (U0 x Hx)), (UQ _ _ a' (u' x) _ _ (NS' x Hx) SA' (U' x Hx)).
    unfold dot. rewrite <- rsum_minus. eapply Rle_lt_trans; [apply rsum_abs|].
    apply Rle_lt_trans with (rsum n (fun _ => eta * Y)).
    + apply rsum_le. intros j Hj. replace (u' x j * at_ targets (q x j :: e) - u0 x j * at_ targets (q x j :: e))
        with ((u' x j - u0 x j) * at_ targets (q x j :: e)) by ring. rewrite Rabs_mult.
      apply Rmult_le_compat; try apply Rabs_pos; [left; apply EV2; exact Hj|]. apply YB, inb_cons. split; [apply NR; exact Hj|exact Hie].
    + rewrite rsum_const. unfold eta. apply Rmult_lt_reg_r with (2 * (1 + INR n * Y)); [lra|].
      replace (INR n * (eps / (2 * (1 + INR n * Y)) * Y) * (2 * (1 + INR n * Y))) with (eps * (INR n * Y)) by (field; lra). nra.
Qed.
End Params.
