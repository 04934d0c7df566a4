(** Lemmas for C123. *)
From Coq Require Import Lia Lra.
From Verif Require Import Base BaseFacts NdModel NdFacts RSum HyperModel NamedModel NamedSpec LinAlgModel LinAlgSpec LinAlgFacts Gauss
  GPModel NoiseModel MuyGPSModel GPSpec GPTheorems WellPosedProofs TensorModel TensorSpec TensorProofs KernelModel KernelSpec
  NeighborsModel NeighborsSpec NeighborsProofs FlowModel FlowSpec FlowProofs PointwiseSpec LibSpec LibProofs
  MultiModel DriverModel WorkModel WorkSpec WorkProofs WorkLemmas BestSpec BestGram BestProofs LocalSpec LocalProofs FarSpec FarProofs DupProofs
  SimplerSpec ExpoProofs NativeSpec NativeProofs FitSpec.
Local Open Scope R_scope.

Section J.
Variable k : (nat -> R) -> R.

(** The difference of two functions of the space. *)
Definition join {T} (p : nat) (f g : nat -> T) (i : nat) : T := if (i <? p)%nat then f i else g (i - p)%nat.

Lemma rsum_join p n (F : nat -> R) (A B : nat -> R) : (forall i, (i < p)%nat -> F i = A i) -> (forall i, (i < n)%nat -> F (p + i)%nat = B i) ->
  rsum (p + n) F = rsum p A + rsum n B.
Proof. intros H1 H2. rewrite rsum_app. f_equal; apply rsum_ext; auto. Qed.

Lemma join_l {T} p (f g : nat -> T) i : (i < p)%nat -> join p f g i = f i.
Proof. intros H. unfold join. apply Nat.ltb_lt in H. rewrite H. reflexivity. Qed.
Lemma join_r {T} p (f g : nat -> T) i : join p f g (p + i) = g i.
Proof. unfold join. assert ((p + i <? p)%nat = false) as -> by (apply Nat.ltb_ge; lia). f_equal. lia. Qed.

Lemma span_join p n z z' a b v : span k (p + n) (join p z z') (join p a (fun j => - b j)) v = span k p z a v - span k n z' b v.
Proof.
  unfold span. rewrite (rsum_join p n _ (fun j => a j * k (fun f => v f - z j f)) (fun j => - (b j * k (fun f => v f - z' j f)))).
  - rewrite rsum_opp. ring.
  - intros i Hi. rewrite !join_l by exact Hi. reflexivity.
  - intros i Hi. rewrite !join_r. ring.
Qed.

Hypothesis SYM : forall u v : nat -> R, k (fun f => u f - v f) = k (fun f => v f - u f).

Lemma norm2_span p z a : span_norm2 k p z a = rsum p (fun i => a i * span k p z a (z i)).
Proof. unfold span_norm2, span. apply rsum_ext. intros i _. rewrite <- rsum_scal. apply rsum_ext. intros j _. ring. Qed.

Lemma cross_span p z a n z' b : rsum p (fun i => a i * span k n z' b (z i)) = rsum n (fun j => b j * span k p z a (z' j)).
Proof.
  unfold span.
  rewrite (rsum_ext p _ (fun i => rsum n (fun j => a i * (b j * k (fun f => z i f - z' j f))))) by (intros; rewrite rsum_scal; reflexivity).
  rewrite rsum_swap. apply rsum_ext. intros j _. rewrite <- rsum_scal. apply rsum_ext. intros i _. rewrite (SYM (z i) (z' j)). ring.
Qed.

Lemma norm2_join p n z z' a b :
  span_norm2 k (p + n) (join p z z') (join p a (fun j => - b j)) =
  span_norm2 k p z a - 2 * rsum n (fun j => b j * span k p z a (z' j)) + span_norm2 k n z' b.
Proof.
  rewrite !norm2_span.
  rewrite (rsum_join p n _ (fun i => a i * span k p z a (z i) - a i * span k n z' b (z i)) (fun j => - (b j * span k p z a (z' j)) + b j * span k n z' b (z' j))).
  - rewrite rsum_minus, rsum_plus, rsum_opp, (cross_span p z a n z' b). ring.
  - intros i Hi. rewrite !join_l by exact Hi. rewrite span_join. ring.
  - intros i Hi. rewrite !join_r, span_join. ring.
Qed.
End J.

Section Fit.
Variables (gamma : R -> R) (kv : R -> R -> R).

Lemma lk_sym K F cur kw (u v : nat -> R) :
  lk_cov gamma kv K F cur kw (fun f => u f - v f) = lk_cov gamma kv K F cur kw (fun f => v f - u f).
Proof. exact (lk_cov_sym_pts gamma kv K F cur kw (fun i => match i with O => u | _ => v end) 0 1). Qed.

(** A function of norm zero vanishes. *)
Lemma norm_zero K F cur p z a v : lk_ok K F cur [] -> let k := lk_cov gamma kv K F cur [] in
  span_norm2 k p z a <= 0 -> span k p z a v = 0.
Proof.
  intros OK k H0.
  set (pt := join p z (fun _ => v)).
  pose proof (kernel_cs k pt p 0 (lk_cov_psd gamma kv K _ cur [] pt (p + 1) OK) (fun i j _ _ => lk_sym K F cur [] (pt i) (pt j))
    a (fun _ => 0) (fun _ => 0) (fun _ => 0) ltac:(intros; lia) ltac:(intros; lia)) as C.
  cbv zeta beta in C. cbn [rsum] in C.
  assert (PX : pt p = v) by (pose proof (join_r p z (fun _ => v) 0) as T; rewrite Nat.add_0_r in T; exact T).
  assert (PZ : forall i, (i < p)%nat -> pt i = z i) by (intros i Hi; apply join_l; exact Hi).
  assert (SX : rsum p (fun j => a j * k (fun f => pt j f - pt p f)) = span k p z a v).
  { unfold span. apply rsum_ext. intros j Hj. rewrite PX, PZ by exact Hj. unfold k. rewrite lk_sym. reflexivity. }
  assert (SN : rsum p (fun i => rsum p (fun j => a i * a j * k (fun f => pt i f - pt j f))) = span_norm2 k p z a).
  { unfold span_norm2. apply rsum_ext. intros i Hi. apply rsum_ext. intros j Hj. rewrite !PZ by assumption. reflexivity. }
  rewrite SX, SN in C. pose proof (psd_quad gamma kv K F cur [] p z a OK) as P. fold k in P.
  assert (Z : span_norm2 k p z a = 0) by lra. rewrite Z in C.
  assert (D : (span k p z a v) ^ 2 <= 0) by (eapply Rle_trans; [|eapply Rle_trans; [exact C|]]; right; ring).
  destruct (Req_dec (span k p z a v) 0) as [E|NE]; [exact E|]. exfalso.
  assert (0 < (span k p z a v) ^ 2) by (rewrite <- Rsqr_pow2; apply Rsqr_pos_lt; exact NE). lra.
Qed.

Section Core.
Variables (K : libkernel) (cur : nat -> R) (m : noise_model) (train : nd R) (x n : nat) (q : nat -> nat) (y al : nat -> R).
Hypothesis OK : lk_ok K (feature_count train) cur [].
Let k := lk_cov gamma kv K (feature_count train) cur [].
Let z := fun j => feature train (q j).
Hypothesis N0 : forall j, (j < n)%nat -> 0 <= noise_at m None x j.
Hypothesis SO : solves n (nbr_matrix k m train (fun _ => q) x) al (fun j => y (q j)).

(** The fit at a neighbour. *)
Lemma fit_at i : (i < n)%nat -> span k n z al (z i) = y (q i) - noise_at m None x i * al i.
Proof.
  intros Hi. rewrite <- (SO i Hi). unfold span.
  rewrite (rsum_ext n (fun j => nbr_matrix k m train (fun _ => q) x i j * al j)
     (fun j => al j * k (fun f => z i f - z j f) + delta j i * (noise_at m None x i * al j))).
  2:{ intros j _. unfold nbr_matrix, plus_diag, kcov, delta, z. rewrite (Nat.eqb_sym j i). destruct (i =? j)%nat; ring. }
  rewrite rsum_plus, (rsum_delta n i (fun j => noise_at m None x i * al j)) by exact Hi. ring.
Qed.

Lemma fit_energy : penalised k m train x n q y n z al = rsum n (fun j => al j * y (q j)).
Proof.
  unfold penalised, misfit. rewrite norm2_span, <- rsum_plus. apply rsum_ext. intros j Hj.
  fold (z j). rewrite fit_at by exact Hj.
  destruct (Req_dec (noise_at m None x j) 0) as [E|NE]; [rewrite E; unfold Rdiv; ring|field; exact NE].
Qed.

Lemma fit_respects : respects m train x n q y (span k n z al).
Proof. intros j Hj E. fold (z j). rewrite fit_at by exact Hj. rewrite E. ring. Qed.

Lemma fit_excess p' z' a' : respects m train x n q y (span k p' z' a') ->
  penalised k m train x n q y p' z' a' - penalised k m train x n q y n z al =
  span_norm2 k (p' + n) (join p' z' z) (join p' a' (fun j => - al j)) +
  rsum n (fun i => (span k p' z' a' (z i) - span k n z al (z i)) ^ 2 / noise_at m None x i).
Proof.
  intros RS. rewrite fit_energy. rewrite norm2_join by (intros; unfold k; apply lk_sym). rewrite (norm2_span k n z al). unfold penalised, misfit.
  match goal with |- ?A + rsum n ?B - rsum n ?C = ?A - 2 * rsum n ?D + rsum n ?E + rsum n ?F =>
    assert (X : rsum n B - rsum n C = - (2 * rsum n D) + rsum n E + rsum n F) end; [|lra].
  rewrite <- rsum_scal, <- rsum_opp, <- !rsum_plus, <- rsum_minus. apply rsum_ext. intros j Hj.
  fold (z j). rewrite fit_at by exact Hj.
  destruct (Req_dec (noise_at m None x j) 0) as [E|NE]; [|field; exact NE].
  rewrite E, (RS j Hj E). fold (z j). unfold Rdiv. ring.
Qed.

Lemma fit_best : best_fit k m train x n q y n z al.
Proof.
  split; [apply fit_respects|]. intros p' z' a' RS. pose proof (fit_excess p' z' a' RS) as X.
  pose proof (psd_quad gamma kv K _ cur [] (p' + n) (join p' z' z) (join p' a' (fun j => - al j)) OK) as P1. fold k in P1.
  assert (P2 : 0 <= rsum n (fun i => (span k p' z' a' (z i) - span k n z al (z i)) ^ 2 / noise_at m None x i)).
  { apply rsum_nonneg. intros i Hi. destruct (N0 i Hi) as [P|E].
    - apply Rmult_le_pos; [apply pow2_ge_0|left; apply Rinv_0_lt_compat; exact P].
    - rewrite <- E. unfold Rdiv. rewrite (fit_at i Hi), <- E, (RS i Hi (eq_sym E)). fold (z i). right. ring. }
  split; [lra|]. intros E v.
  assert (Z : span_norm2 k (p' + n) (join p' z' z) (join p' a' (fun j => - al j)) <= 0) by lra.
  pose proof (norm_zero K _ cur _ _ _ v OK Z) as V. fold k in V. rewrite span_join in V. lra.
Qed.
End Core.

Variable ls : lsolver.
Hypothesis EX : exact_solver ls.
Variable knn : dict nnval -> list point -> point -> nat -> list (nat * R).
Variable hnsw : nnval -> list point -> point -> nat -> list (nat * R).
Variable dist : dict nnval -> point -> point -> R.
Hypothesis SK : sklearn_ok knn dist.

(** A choice of solutions. *)
Definition coefs n A b (i : nat) : R := match ls n 1%nat A (fun i _ => b i) with Some X => X i 0%nat | None => 0 end.
Lemma coefs_ok n A b : nonsingular n A -> solves n A (coefs n A b) b.
Proof.
  intros NS. destruct (proj1 (proj2 EX n 1%nat A (fun i _ => b i)) NS) as [X H]. unfold coefs. rewrite H.
  exact (proj1 EX _ _ _ _ _ H 0%nat ltac:(lia)).
Qed.

(** ** Theorems *)
Lemma fit en method kw w g K cur test train targets N M n ex :
  regression en method kw w test train targets N M n ex -> documented g K cur [] train N M n ->
  exists mean var q a,
    regress_any ls knn hnsw (Univariate (lib_model gamma kv g K cur)) test train w targets = Ok (mean, var) /\
    forall x, (x < M)%nat -> nearest_rows test train N x n (q x) /\
      forall e, inb ex e ->
        let k := lk_cov gamma kv K (feature_count train) cur [] in
        let y := fun b => at_ targets (b :: e) in
        let z := fun j => feature train (q x j) in
        at_ mean (x :: e) = span k n z (a x e) (feature test x) /\
        best_fit k (gp_noise g) train x n (q x) y n z (a x e) /\
        penalised k (gp_noise g) train x n (q x) y n z (a x e) = rsum n (fun j => a x e j * y (q x j)).
Proof.
  intros (Hm & He & Hw & Hn & D1 & D2 & ND & FC & HT & NC) (OK & SKo & K1 & SC & NF & SN).
  destruct (regress_any_nbr gamma kv ls EX knn hnsw dist SK en method kw w g K cur [] test train targets N M n ex)
    as (mean & var & E & _ & _ & NS & V); auto.
  set (k := lk_cov gamma kv K (feature_count train) cur []) in *. set (q := nbr knn hnsw w test) in *.
  exists mean, var, q, (fun x e => coefs n (nbr_matrix k (gp_noise g) train q x) (fun j => at_ targets (q x j :: e))).
  split; [exact E|]. intros x Hx. destruct (V x Hx) as (NR & MX & _). split; [exact NR|]. intros e He' k' y z. subst k'.
  assert (N0 : forall j, (j < n)%nat -> 0 <= noise_at (gp_noise g) None x j).
  { intros j Hj. destruct SN as [P|[P _]]; [left|]; apply P; assumption. }
  set (A := nbr_matrix k (gp_noise g) train q x) in *. set (al := coefs n A (fun j => at_ targets (q x j :: e))).
  pose proof (coefs_ok n A (fun j => at_ targets (q x j :: e)) (NS x Hx)) as SO. fold al in SO.
  split; [|split].
  - destruct (MX e He') as (u & U & ->). 
    pose proof (nbr_sym gamma kv K (feature_count train) cur [] (gp_noise g) train n q x) as SY. fold k in SY. fold A in SY.
    rewrite (symmetric_adjoint n A u al _ _ SY U SO). unfold dot, span. apply rsum_ext. intros j Hj. unfold kcov, z. ring.
  - exact (fit_best K cur (gp_noise g) train x n (q x) y al OK N0 SO).
  - exact (fit_energy K cur (gp_noise g) train x n (q x) y al SO).
Qed.

Lemma interpolant en method kw w g K cur test train targets N M n ex :
  regression en method kw w test train targets N M n ex -> documented g K cur [] train N M n ->
  (forall x i, (x < M)%nat -> (i < n)%nat -> noise_at (gp_noise g) None x i = 0) ->
  exists mean var q a,
    regress_any ls knn hnsw (Univariate (lib_model gamma kv g K cur)) test train w targets = Ok (mean, var) /\
    forall x, (x < M)%nat -> nearest_rows test train N x n (q x) /\
      forall e, inb ex e ->
        let k := lk_cov gamma kv K (feature_count train) cur [] in
        let z := fun j => feature train (q x j) in
        let h := span k n z (a x e) in
        at_ mean (x :: e) = h (feature test x) /\
        (forall j, (j < n)%nat -> h (z j) = at_ targets (q x j :: e)) /\
        forall p' z' a', (forall j, (j < n)%nat -> span k p' z' a' (z j) = at_ targets (q x j :: e)) ->
          span_norm2 k n z (a x e) <= span_norm2 k p' z' a' /\
          (span_norm2 k p' z' a' = span_norm2 k n z (a x e) -> forall v, span k p' z' a' v = h v).
Proof.
  intros RG DO HN. destruct (fit en method kw w g K cur test train targets N M n ex RG DO) as (mean & var & q & a & E & V).
  exists mean, var, q, a. split; [exact E|]. intros x Hx. destruct (V x Hx) as (NR & W). split; [exact NR|]. intros e He k z h.
  destruct (W e He) as (EM & (RS & BF) & _). fold k in EM, RS, BF. fold z in EM, RS, BF. fold h in EM, RS, BF.
  split; [exact EM|]. split; [intros j Hj; symmetry; exact (RS j Hj (HN x j Hx Hj))|].
  assert (MF0 : forall fn, misfit (gp_noise g) train x n (q x) (fun b => at_ targets (b :: e)) fn = 0).
  { intros fn. unfold misfit. rewrite (rsum_ext n _ (fun _ => 0)); [apply rsum_0|]. intros j Hj. rewrite HN by assumption. unfold Rdiv. rewrite Rinv_0. ring. }
  intros p' z' a' HI. specialize (BF p' z' a'). unfold penalised in BF. rewrite !MF0, !Rplus_0_r in BF. apply BF.
  intros j Hj _. symmetry. apply HI. exact Hj.
Qed.

(** Every training row. *)
Lemma fit_all_rows en method kw w g K cur test train targets N M ex :
  regression en method kw w test train targets N M N ex -> documented g K cur [] train N M N -> uniform_noise (gp_noise g) ->
  exists mean var a,
    regress_any ls knn hnsw (Univariate (lib_model gamma kv g K cur)) test train w targets = Ok (mean, var) /\
    forall e, inb ex e ->
      let k := lk_cov gamma kv K (feature_count train) cur [] in
      let y := fun b => at_ targets (b :: e) in
      best_fit k (gp_noise g) train 0 N (fun b => b) y N (feature train) (a e) /\
      forall x, (x < M)%nat -> at_ mean (x :: e) = span k N (feature train) (a e) (feature test x).
Proof.
  intros (Hm & He & Hw & Hn & D1 & D2 & ND & FC & HT & NC) (OK & SKo & K1 & SC & NF & SN) UN.
  destruct (all_any gamma kv ls EX knn hnsw dist SK en method kw w g K cur test train targets N M ex) as (mean & var & E & V); auto; [lia|].
  set (k := lk_cov gamma kv K (feature_count train) cur []) in *. set (A := full_matrix k (gp_noise g) train) in *.
  assert (M0 : (0 < M)%nat) by lia. destruct (V 0%nat M0) as (NS & _).
  assert (UNI : forall i, noise_at (gp_noise g) None 0 i = noise_at (gp_noise g) None 0 0).
  { intros i. destruct UN as [->|[v ->]]; reflexivity. }
  assert (N0 : forall j, (j < N)%nat -> 0 <= noise_at (gp_noise g) None 0 j).
  { intros j Hj. destruct SN as [P|[P _]]; [left|]; apply P; assumption. }
  exists mean, var, (fun e => coefs N A (fun b => at_ targets (b :: e))). split; [exact E|]. intros e He' k' y. subst k'.
  pose proof (coefs_ok N A y NS) as SO. set (al := coefs N A y) in *. fold y. fold al.
  assert (SO' : solves N (nbr_matrix k (gp_noise g) train (fun _ b => b) 0) al (fun j => y j)).
  { intros i Hi. rewrite <- (SO i Hi). apply rsum_ext. intros j Hj. unfold nbr_matrix, plus_diag, A, full_matrix. rewrite UNI. reflexivity. }
  split; [exact (fit_best K cur (gp_noise g) train 0 N (fun b => b) y al OK N0 SO')|].
  intros x Hx. destruct (V x Hx) as (_ & KR & _). destruct (KR e He') as (u & U & ->).
  pose proof (nbr_sym gamma kv K (feature_count train) cur [] (gp_noise g) train N (fun _ b => b) 0) as SY. fold k in SY.
  assert (SYA : symmetric N A).
  { intros i j Hi Hj. pose proof (SY i j Hi Hj) as T. unfold nbr_matrix, plus_diag in T. unfold A, full_matrix. rewrite (UNI i), (UNI j) in T. exact T. }
  pose proof (symmetric_adjoint N A u al _ _ SYA U SO) as T. eapply eq_trans; [exact T|]. unfold dot, span. apply rsum_ext. intros j Hj. unfold kcov. ring.
Qed.

(** The variance is the largest error that the neighbours cannot exclude. *)
Lemma worst en method kw w g K cur test train targets N M n ex :
  regression en method kw w test train targets N M n ex -> documented g K cur [] train N M n ->
  exists mean var q,
    regress_any ls knn hnsw (Univariate (lib_model gamma kv g K cur)) test train w targets = Ok (mean, var) /\
    forall x, (x < M)%nat -> nearest_rows test train N x n (q x) /\
      let k := lk_cov gamma kv K (feature_count train) cur [] in
      let null := respects (gp_noise g) train x n (q x) (fun _ => 0) in
      let energy := penalised k (gp_noise g) train x n (q x) (fun _ => 0) in
      (forall p z a, null (span k p z a) -> gp_var_scale g * span k p z a (feature test x) ^ 2 <= energy p z a * at_ var [x]) /\
      exists p z a, null (span k p z a) /\ energy p z a = span k p z a (feature test x) /\ at_ var [x] = gp_var_scale g * span k p z a (feature test x).
Proof.
  intros (Hm & He & Hw & Hn & D1 & D2 & ND & FC & HT & NC) (OK & SKo & K1 & SC & NF & SN).
  destruct (regress_any_nbr gamma kv ls EX knn hnsw dist SK en method kw w g K cur [] test train targets N M n ex)
    as (mean & var & E & _ & _ & NS & V); auto.
  set (k := lk_cov gamma kv K (feature_count train) cur []) in *. set (q := nbr knn hnsw w test) in *.
  exists mean, var, q. split; [exact E|]. intros x Hx. destruct (V x Hx) as (NR & _ & (u & U & VA) & _). split; [exact NR|]. intros k' null energy. subst k'.
  assert (N0 : forall j, (j < n)%nat -> 0 <= noise_at (gp_noise g) None x j).
  { intros j Hj. destruct SN as [P|[P _]]; [left|]; apply P; assumption. }
  assert (WP : well_posed (gp_noise g) train M n q) by (apply (sound_well_posed _ test train N); auto; intros t Ht; apply V; auto).
  destruct (error_optimal gamma kv K cur [] (gp_noise g) test train M x n q u OK WP Hx U) as [EE _]. fold k in EE.
  set (z := fun j => feature train (q x j)).
  split.
  - intros p t a RS.
    pose proof (native_core gamma kv K cur (gp_noise g) test train x n (q x) u p t a (fun _ => 0) OK N0) as C. fold k in C.
    assert (NR' : forall j, (j < n)%nat -> 0 < noise_at (gp_noise g) None x j \/ noise_at (gp_noise g) None x j = 0 /\ 0 = span k p t a (feature train (q x j))).
    { intros j Hj. destruct (N0 j Hj) as [P|P]; [left; exact P|right; split; [symmetry; exact P|apply RS; auto]]. }
    specialize (C NR'). rewrite VA. rewrite EE in C.
    rewrite (rsum_ext n (fun j => u j * 0) (fun _ => 0)) in C by (intros; ring). rewrite rsum_0, Rminus_0_r in C.
    apply (Rmult_le_compat_l (gp_var_scale g)) in C; [|exact SC]. eapply Rle_trans; [exact C|right; unfold energy, penalised; ring].
  - exists (1 + n)%nat, (join 1 (fun _ => feature test x) z), (join 1 (fun _ => 1) (fun j => - u j)).
    assert (S1 : forall v, span k 1 (fun _ => feature test x) (fun _ => 1) v = k (fun f => v f - feature test x f)) by (intros v; unfold span; cbn [rsum]; ring).
    assert (SQ : forall i, (i < n)%nat -> span k n z u (z i) = kcov k test train x (q x i) - noise_at (gp_noise g) None x i * u i).
    { intros i Hi. rewrite <- (U i Hi). unfold span.
      rewrite (rsum_ext n (fun j => nbr_matrix k (gp_noise g) train q x i j * u j)
        (fun j => u j * k (fun f => z i f - z j f) + delta j i * (noise_at (gp_noise g) None x i * u j))).
      2:{ intros j _. unfold nbr_matrix, plus_diag, kcov, delta, z. rewrite (Nat.eqb_sym j i). destruct (i =? j)%nat; ring. }
      rewrite rsum_plus, (rsum_delta n i (fun j => noise_at (gp_noise g) None x i * u j)) by exact Hi. ring. }
    assert (FQ : forall i, (i < n)%nat -> span k (1 + n) (join 1 (fun _ => feature test x) z) (join 1 (fun _ => 1) (fun j => - u j)) (z i) = noise_at (gp_noise g) None x i * u i).
    { intros i Hi. rewrite span_join, S1, SQ by exact Hi. unfold kcov. unfold k. rewrite lk_sym. unfold z. ring. }
    assert (K0 : k (fun f => feature test x f - feature test x f) = 1) by exact (lk_cov_0 gamma kv K _ cur [] (feature test) x OK).
    assert (SU : span k n z u (feature test x) = dot n u (fun j => kcov k test train x (q x j))) by reflexivity.
    assert (FX : span k (1 + n) (join 1 (fun _ => feature test x) z) (join 1 (fun _ => 1) (fun j => - u j)) (feature test x) = 1 - dot n u (fun j => kcov k test train x (q x j))).
    { rewrite span_join, S1, K0, SU. reflexivity. }
    split; [intros j Hj Z; change (0 = span k (1 + n) (join 1 (fun _ => feature test x) z) (join 1 (fun _ => 1) (fun j => - u j)) (z j)); rewrite FQ by exact Hj; rewrite Z; ring|].
    split; [|rewrite FX; exact VA]. rewrite FX. unfold energy, penalised, misfit.
    rewrite norm2_join by (intros; unfold k; apply lk_sym). rewrite (norm2_span k n z u).
    rewrite (rsum_ext n (fun j => _ / noise_at (gp_noise g) None x j) (fun j => u j * (noise_at (gp_noise g) None x j * u j))).
    2:{ intros j Hj. fold (z j). rewrite FQ by exact Hj. destruct (Req_dec (noise_at (gp_noise g) None x j) 0) as [Z|NZ]; [rewrite Z; unfold Rdiv; ring|field; exact NZ]. }
    assert (N1 : span_norm2 k 1 (fun _ => feature test x) (fun _ => 1) = 1) by (unfold span_norm2; cbn [rsum]; rewrite K0; ring). rewrite N1.
    rewrite (rsum_ext n (fun j => u j * span k 1 _ _ (z j)) (fun j => u j * kcov k test train x (q x j))).
    2:{ intros j Hj. rewrite S1. f_equal. unfold kcov, k. rewrite lk_sym. reflexivity. }
    rewrite (rsum_ext n (fun j => u j * span k n z u (z j)) (fun j => u j * kcov k test train x (q x j) - u j * (noise_at (gp_noise g) None x j * u j))) by (intros j Hj; rewrite SQ by exact Hj; ring).
    rewrite rsum_minus. unfold dot. ring.
Qed.
End Fit.
