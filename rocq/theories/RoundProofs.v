(** Proofs about predictions computed with an inexact solver and an inexact kernel. *)
From Coq Require Import Lia Lra.
From Verif Require Import Base BaseFacts NdModel NdFacts RSum HyperModel NamedModel NamedSpec LinAlgModel LinAlgSpec LinAlgFacts Gauss
  GPModel GPProofs NoiseModel MuyGPSModel GPSpec MuyGPSProofs GPTheorems WellPosedProofs TensorModel TensorSpec TensorProofs KernelModel KernelSpec KernelProofs
  NeighborsModel NeighborsSpec NeighborsProofs FlowModel FlowSpec FlowProofs PointwiseSpec LibSpec LibProofs
  MultiModel DriverModel WorkModel WorkSpec WorkProofs WorkLemmas BestSpec BestProofs LocalSpec FarSpec FarProofs SmoothProofs ContProofs RoundSpec.
Local Open Scope R_scope.

(** ** Perturbed systems *)
Lemma abs_sum_sq n (v : nat -> R) : rsum n (fun i => Rabs (v i)) ^ 2 <= INR n * rsum n (fun i => v i ^ 2).
Proof.
  pose proof (cauchy_schwarz n (fun i => Rabs (v i)) (fun _ => 1)) as C. cbn beta in C.
  rewrite (rsum_ext n (fun f => Rabs (v f) * 1) (fun i => Rabs (v i))) in C by (intros; ring).
  rewrite (rsum_ext n (fun f => Rabs (v f) ^ 2) (fun i => v i ^ 2)) in C by (intros; apply pow2_abs).
  rewrite (rsum_ext n (fun _ => 1 ^ 2) (fun _ => 1)) in C by (intros; ring). rewrite rsum_const in C. lra.
Qed.

Lemma coercive_near' n A0 A c d : 0 <= d -> coercive n A0 c -> (forall i j, (i < n)%nat -> (j < n)%nat -> Rabs (A i j - A0 i j) <= d) ->
  coercive n A (c - INR n * d).
Proof.
  intros D0 CO H v. pose proof (CO v) as Q. set (V := rsum n (fun i => v i ^ 2)) in *.
  set (S1 := rsum n (fun i => Rabs (v i))).
  assert (B : Rabs (quad n (fun i j => A i j - A0 i j) v) <= d * S1 ^ 2).
  { unfold quad. eapply Rle_trans; [apply rsum_abs|].
    replace (d * S1 ^ 2) with (rsum n (fun i => Rabs (v i) * (d * S1))) by (rewrite rsum_scal_r; fold S1; ring).
    apply rsum_le. intros i Hi. eapply Rle_trans; [apply rsum_abs|].
    replace (Rabs (v i) * (d * S1)) with (rsum n (fun j => Rabs (v i) * d * Rabs (v j))) by (rewrite rsum_scal; fold S1; ring).
    apply rsum_le. intros j Hj. rewrite !Rabs_mult. apply Rmult_le_compat_r; [apply Rabs_pos|].
    apply Rmult_le_compat_l; [apply Rabs_pos|apply H; auto]. }
  assert (E : quad n A v = quad n A0 v + quad n (fun i j => A i j - A0 i j) v).
  { unfold quad. rewrite <- rsum_plus. apply rsum_ext. intros i Hi. rewrite <- rsum_plus. apply rsum_ext. intros j Hj. ring. }
  rewrite E. pose proof (Rle_abs (- quad n (fun i j => A i j - A0 i j) v)) as X. rewrite Rabs_Ropp in X.
  pose proof (abs_sum_sq n v) as C. fold V S1 in C.
  assert (d * S1 ^ 2 <= d * (INR n * V)) by (apply Rmult_le_compat_l; auto).
  replace ((c - INR n * d) * V) with (c * V - d * (INR n * V)) by ring. lra.
Qed.

Lemma l1_bound n A k w c r : 0 < c -> 0 <= r -> coercive n A c -> solves n A w k -> (forall i, (i < n)%nat -> Rabs (k i) <= r) ->
  rsum n (fun i => Rabs (w i)) <= INR n * r / c.
Proof.
  intros C0 R0 CO SO B. destruct (coercive_weights n A k w c C0 CO SO) as (_ & W & _).
  pose proof (abs_sum_sq n w) as AS. pose proof (pos_INR n) as N0.
  assert (KB : rsum n (fun i => k i ^ 2) <= INR n * r ^ 2).
  { rewrite <- rsum_const. apply rsum_le. intros i Hi. rewrite <- (pow2_abs (k i)). apply pow_incr. split; [apply Rabs_pos|apply B; exact Hi]. }
  set (s := rsum n (fun i => Rabs (w i))) in *. assert (S0 : 0 <= s) by (apply rsum_nonneg; intros; apply Rabs_pos).
  assert (Z : (c * s) ^ 2 <= (INR n * r) ^ 2).
  { replace ((c * s) ^ 2) with (c ^ 2 * s ^ 2) by ring. set (W2 := rsum n (fun i => w i ^ 2)) in *.
    apply Rle_trans with (c ^ 2 * (INR n * W2)); [apply Rmult_le_compat_l; [apply pow2_ge_0|exact AS]|].
    replace (c ^ 2 * (INR n * W2)) with (INR n * (c ^ 2 * W2)) by ring. replace ((INR n * r) ^ 2) with (INR n * (INR n * r ^ 2)) by ring.
    apply Rmult_le_compat_l; [exact N0|lra]. }
  assert (P : c * s <= INR n * r).
  { apply Rsqr_incr_0_var; [|apply Rmult_le_pos; auto]. unfold Rsqr. cbn [pow] in Z. lra. }
  apply Rmult_le_reg_l with c; [exact C0|]. replace (c * (INR n * r / c)) with (INR n * r) by (field; lra). exact P.
Qed.

(** The error bounds. *)
Definition resid_err (n : nat) (c eta delta : R) : R := eta + delta + eta * (INR n / c).
Definition weight_err (n : nat) (c eta delta : R) : R := INR n * resid_err n c eta delta / (c - INR n * eta).

Lemma perturbed_weights n A A' k k' w w' c eta delta : 0 < c -> 0 <= eta -> 0 <= delta -> INR n * eta < c ->
  coercive n A c -> solves n A w k -> (forall i, (i < n)%nat -> Rabs (k i) <= 1) ->
  (forall i j, (i < n)%nat -> (j < n)%nat -> Rabs (A' i j - A i j) <= eta) ->
  (forall i, (i < n)%nat -> Rabs (k' i - k i) <= eta) -> near_solves n A' w' k' delta ->
  rsum n (fun i => Rabs (w i)) <= INR n / c /\ rsum n (fun i => Rabs (w' i - w i)) <= weight_err n c eta delta.
Proof.
  intros C0 E0 D0 NE CO SO K1 HA HK NS.
  assert (W1 : rsum n (fun i => Rabs (w i)) <= INR n / c).
  { pose proof (l1_bound n A k w c 1 C0 ltac:(lra) CO SO K1) as L. replace (INR n * 1 / c) with (INR n / c) in L by (field; lra). exact L. }
  split; [exact W1|]. unfold weight_err.
  pose proof (coercive_near' n A A' c eta E0 CO HA) as CO'.
  assert (I0 : 0 <= INR n / c) by (apply Rmult_le_pos; [apply pos_INR|left; apply Rinv_0_lt_compat; exact C0]).
  apply (l1_bound n A' (fun i => rsum n (fun j => A' i j * (w' j - w j))) (fun i => w' i - w i) (c - INR n * eta)); [lra| |exact CO'|intros i Hi; reflexivity|].
  - unfold resid_err. pose proof (Rmult_le_pos _ _ E0 I0). lra.
  - intros i Hi.
    replace (rsum n (fun j => A' i j * (w' j - w j)))
      with ((rsum n (fun j => A' i j * w' j) - k' i) + (k' i - k i) - rsum n (fun j => (A' i j - A i j) * w j)).
    2:{ assert (X1 : rsum n (fun j => A' i j * (w' j - w j)) = rsum n (fun j => A' i j * w' j) - rsum n (fun j => A' i j * w j)).
        { rewrite <- rsum_minus. apply rsum_ext. intros; ring. }
        assert (X2 : rsum n (fun j => (A' i j - A i j) * w j) = rsum n (fun j => A' i j * w j) - k i).
        { rewrite <- (SO i Hi), <- rsum_minus. apply rsum_ext. intros; ring. }
        rewrite X1, X2. ring. }
    assert (B3 : Rabs (rsum n (fun j => (A' i j - A i j) * w j)) <= eta * (INR n / c)).
    { eapply Rle_trans; [apply rsum_abs|]. apply Rle_trans with (eta * rsum n (fun i => Rabs (w i))); [|apply Rmult_le_compat_l; auto].
      rewrite <- rsum_scal. apply rsum_le. intros j Hj. rewrite Rabs_mult. apply Rmult_le_compat_r; [apply Rabs_pos|apply HA; auto]. }
    pose proof (NS i Hi) as B1. pose proof (HK i Hi) as B2. unfold resid_err.
    unfold Rminus at 1. eapply Rle_trans; [apply Rabs_triang|]. rewrite Rabs_Ropp.
    eapply Rle_trans; [apply Rplus_le_compat_r, Rabs_triang|]. lra.
Qed.

Lemma dot_l1 n (u y : nat -> R) Y : (forall i, (i < n)%nat -> Rabs (y i) <= Y) -> Rabs (dot n u y) <= rsum n (fun i => Rabs (u i)) * Y.
Proof.
  intros B. unfold dot. eapply Rle_trans; [apply rsum_abs|]. rewrite <- rsum_scal_r. apply rsum_le. intros i Hi.
  rewrite Rabs_mult. apply Rmult_le_compat_l; [apply Rabs_pos|apply B; exact Hi].
Qed.
Lemma dot_minus_l n (u v y : nat -> R) : dot n (fun i => u i - v i) y = dot n u y - dot n v y.
Proof. unfold dot. rewrite <- rsum_minus. apply rsum_ext. intros; ring. Qed.

Lemma perturbed_mean n A A' k k' w w' c eta delta y Y : 0 < c -> 0 <= eta -> 0 <= delta -> INR n * eta < c ->
  coercive n A c -> solves n A w k -> (forall i, (i < n)%nat -> Rabs (k i) <= 1) ->
  (forall i j, (i < n)%nat -> (j < n)%nat -> Rabs (A' i j - A i j) <= eta) ->
  (forall i, (i < n)%nat -> Rabs (k' i - k i) <= eta) -> near_solves n A' w' k' delta -> 0 <= Y -> (forall i, (i < n)%nat -> Rabs (y i) <= Y) ->
  Rabs (dot n w' y - dot n w y) <= weight_err n c eta delta * Y.
Proof.
  intros C0 E0 D0 NE CO SO K1 HA HK NS Y0 YB. destruct (perturbed_weights n A A' k k' w w' c eta delta) as [_ W]; auto.
  rewrite <- dot_minus_l. eapply Rle_trans; [apply (dot_l1 n _ y Y YB)|]. apply Rmult_le_compat_r; auto.
Qed.
Lemma perturbed_var n A A' k k' w w' c eta delta : 0 < c -> 0 <= eta -> 0 <= delta -> INR n * eta < c ->
  coercive n A c -> solves n A w k -> (forall i, (i < n)%nat -> Rabs (k i) <= 1) ->
  (forall i j, (i < n)%nat -> (j < n)%nat -> Rabs (A' i j - A i j) <= eta) ->
  (forall i, (i < n)%nat -> Rabs (k' i - k i) <= eta) -> near_solves n A' w' k' delta ->
  Rabs (dot n w' k' - dot n w k) <= weight_err n c eta delta * (1 + eta) + INR n / c * eta.
Proof.
  intros C0 E0 D0 NE CO SO K1 HA HK NS. destruct (perturbed_weights n A A' k k' w w' c eta delta) as [W1 W]; auto.
  replace (dot n w' k' - dot n w k) with (dot n (fun i => w' i - w i) k' + dot n w (fun i => k' i - k i)).
  2:{ rewrite dot_minus_l. unfold dot. rewrite (rsum_ext n (fun i => w i * (k' i - k i)) (fun i => w i * k' i - w i * k i)) by (intros; ring).
      rewrite rsum_minus. ring. }
  eapply Rle_trans; [apply Rabs_triang|]. apply Rplus_le_compat.
  - eapply Rle_trans; [apply (dot_l1 n _ k' (1 + eta))|apply Rmult_le_compat_r; [lra|exact W]].
    intros i Hi. replace (k' i) with (k i + (k' i - k i)) by ring. eapply Rle_trans; [apply Rabs_triang|].
    pose proof (K1 i Hi). pose proof (HK i Hi). lra.
  - eapply Rle_trans; [apply (dot_l1 n _ (fun i => k' i - k i) eta HK)|]. apply Rmult_le_compat_r; auto.
Qed.

(** ** The posterior with an arbitrary solver *)
Section Post.
Variable ls : lsolver.

(** What the solver returns for the system of batch row [x]: [good] on everything it may be called with. *)
Lemma mean_any (good : nat -> (nat -> nat -> R) -> Prop) Kin Kcross T b n ex :
  shape Kin = [b; n; n] -> shape Kcross = [b; n] -> shape T = b :: n :: ex -> no_coincidence ex [n] ->
  (forall x A B, (x < b)%nat -> (forall i j, (i < n)%nat -> (j < n)%nat -> A i j = at_ Kin [x; i; j]) ->
     (forall i j, (i < n)%nat -> (j < 1)%nat -> B i j = at_ Kcross [x; i]) -> exists X, ls n 1%nat A B = Some X /\ good x X) ->
  exists t, posterior_mean ls Kin Kcross T = Ok t /\ shape t = b :: ex /\
    forall x, (x < b)%nat -> exists X, good x X /\ forall e, inb ex e -> at_ t (x :: e) = rsum n (fun i => X i O * at_ T (x :: i :: e)).
Proof.
  intros HK HC HT Hnc HS.
  assert (UR : forall i, (i < n)%nat -> unravel [n] i = [i]).
  { intros i _. apply unravel1. }
  rewrite (posterior_mean_unfold ls Kin Kcross T [b] [n] [] ex) by (auto; discriminate).
  destruct (reshape_ok T ([b] ++ [nprod [n]; nprod ex])) as [Tf ETf].
  { rewrite HT. change (b :: n :: ex) with ([b] ++ [n] ++ ex). rewrite !nprod_app, nprod2. lia. }
  destruct (reshape_ok Kin ([b] ++ [nprod [n]; nprod [n]])) as [Kf EKf].
  { rewrite HK. change [b; n; n] with ([b] ++ [n] ++ [n]). rewrite !nprod_app, nprod2. lia. }
  destruct (reshape_ok Kcross ([b] ++ [nprod [n]; nprod []])) as [Cf ECf].
  { rewrite HC. change [b; n] with ([b] ++ [n] ++ []). rewrite !nprod_app, nprod2. lia. }
  rewrite ETf, EKf, ECf; cbn [bind].
  pose proof (reshape_shape _ _ _ ETf) as STf. pose proof (reshape_shape _ _ _ EKf) as SKf. pose proof (reshape_shape _ _ _ ECf) as SCf.
  assert (KF : forall x i j, (x < b)%nat -> (i < n)%nat -> (j < n)%nat -> slice2 Kf [x] i j = at_ Kin [x; i; j]).
  { intros x i j Hx Hi Hj. unfold slice2. rewrite (reshape_flat2 Kin Kf [b] [n] [n] [x] i j HK EKf) by (rewrite ?nprod1; auto; apply inb1; auto).
    rewrite !UR by auto. reflexivity. }
  assert (CF : forall x i j, (x < b)%nat -> (i < n)%nat -> (j < 1)%nat -> slice2 Cf [x] i j = at_ Kcross [x; i]).
  { intros x i j Hx Hi Hj. unfold slice2. rewrite (reshape_flat2 Kcross Cf [b] [n] [] [x] i j HC ECf) by (rewrite ?nprod1, ?nprod0; auto; apply inb1; auto).
    rewrite UR by auto. reflexivity. }
  assert (HS' : forall x, (x < b)%nat -> exists X, ls (nprod [n]) (nprod []) (slice2 Kf [x]) (slice2 Cf [x]) = Some X /\ good x X).
  { intros x Hx. rewrite nprod1, nprod0. apply HS; auto. }
  destruct (np_solve_ok ls Kf Cf _ _ _ SKf SCf) as [F EF].
  { intros x Hx. apply inb_inv1 in Hx as (x' & -> & Hx). destruct (HS' x' Hx) as (X & E & _). eauto. }
  rewrite EF; cbn [bind].
  destruct (np_solve_inv ls _ _ _ _ _ _ SKf SCf EF) as [SF HF].
  assert (SsF : shape (swapaxes_last F) = [b] ++ [nprod []; nprod [n]]).
  { cbn [swapaxes_last shape]. rewrite SF. apply swap_last_app2. }
  destruct (np_matmul_inv _ _ _ _ _ _ SsF STf) as (r & Er & Sr & Hr).
  rewrite Er; cbn [bind].
  destruct (reshape_ok r ([b] ++ [] ++ ex)) as [t Et]; [rewrite Sr, !nprod_app, nprod2; lia|].
  exists t. split; [exact Et|]. split; [exact (reshape_shape _ _ _ Et)|]. intros x Hx.
  destruct (HF [x] (inb1 _ _ Hx)) as (Y & EY & HY). destruct (HS' x Hx) as (X & E & G).
  assert (EXY : X = Y) by congruence. subst Y.
  exists X. split; [exact G|]. intros e He.
  pose proof (reshape_unflat2 r t [b] [] ex [x] [] e Sr Et (inb1 _ _ Hx) inb_nil He) as U. cbn [app] in U. rewrite U.
  change (x :: [ravel [] []; ravel ex e]) with ([x] ++ [O; ravel ex e]). rewrite Hr, nprod1. apply rsum_ext. intros a Ha.
  cbn [swapaxes_last at_]. rewrite swap_last_app2, HY. f_equal.
  rewrite (reshape_flat2 T Tf [b] [n] ex [x] a (ravel ex e) HT ETf) by (rewrite ?nprod1; auto; try apply inb1; auto; apply ravel_lt; auto).
  rewrite UR, unravel_ravel by auto. reflexivity.
Qed.

Lemma var_any (good : nat -> (nat -> nat -> R) -> Prop) Kin Kcross Kout b n :
  shape Kin = [b; n; n] -> shape Kcross = [b; n] -> shape Kout = [] ->
  (forall x A B, (x < b)%nat -> (forall i j, (i < n)%nat -> (j < n)%nat -> A i j = at_ Kin [x; i; j]) ->
     (forall i j, (i < n)%nat -> (j < 1)%nat -> B i j = at_ Kcross [x; i]) -> exists X, ls n 1%nat A B = Some X /\ good x X) ->
  exists t, diagonal_variance ls Kin Kcross Kout 1%nat = Ok t /\ shape t = [b] /\
    forall x, (x < b)%nat -> exists X, good x X /\ at_ t [x] = at_ Kout [] - rsum n (fun i => X i O * at_ Kcross [x; i]).
Proof.
  intros HK HC HO HS.
  assert (UR : forall i, (i < n)%nat -> unravel [n] i = [i]).
  { intros i _. apply unravel1. }
  change 1%nat with (List.length [b]) at 1.
  rewrite (diagonal_variance_unfold ls Kin Kcross Kout [b] [n] []) by auto.
  destruct (reshape_ok Kin ([b] ++ [nprod [n]; nprod [n]])) as [Kf EKf].
  { rewrite HK. change [b; n; n] with ([b] ++ [n] ++ [n]). rewrite !nprod_app, nprod2. lia. }
  destruct (reshape_ok Kcross ([b] ++ [nprod [n]; nprod []])) as [Cf ECf].
  { rewrite HC. change [b; n] with ([b] ++ [n] ++ []). rewrite !nprod_app, nprod2. lia. }
  rewrite EKf, ECf; cbn [bind].
  pose proof (reshape_shape _ _ _ EKf) as SKf. pose proof (reshape_shape _ _ _ ECf) as SCf.
  assert (KF : forall x i j, (x < b)%nat -> (i < n)%nat -> (j < n)%nat -> slice2 Kf [x] i j = at_ Kin [x; i; j]).
  { intros x i j Hx Hi Hj. unfold slice2. rewrite (reshape_flat2 Kin Kf [b] [n] [n] [x] i j HK EKf) by (rewrite ?nprod1; auto; apply inb1; auto).
    rewrite !UR by auto. reflexivity. }
  assert (CF : forall x i j, (x < b)%nat -> (i < n)%nat -> (j < 1)%nat -> slice2 Cf [x] i j = at_ Kcross [x; i]).
  { intros x i j Hx Hi Hj. unfold slice2. rewrite (reshape_flat2 Kcross Cf [b] [n] [] [x] i j HC ECf) by (rewrite ?nprod1, ?nprod0; auto; apply inb1; auto).
    rewrite UR by auto. reflexivity. }
  assert (HS' : forall x, (x < b)%nat -> exists X, ls (nprod [n]) (nprod []) (slice2 Kf [x]) (slice2 Cf [x]) = Some X /\ good x X).
  { intros x Hx. rewrite nprod1, nprod0. apply HS; auto. }
  destruct (np_solve_ok ls Kf Cf _ _ _ SKf SCf) as [F EF].
  { intros x Hx. apply inb_inv1 in Hx as (x' & -> & Hx). destruct (HS' x' Hx) as (X & E & _). eauto. }
  rewrite EF; cbn [bind].
  destruct (np_solve_inv ls _ _ _ _ _ _ SKf SCf EF) as [SF HF].
  assert (SsF : shape (swapaxes_last F) = [b] ++ [nprod []; nprod [n]]).
  { cbn [swapaxes_last shape]. rewrite SF. apply swap_last_app2. }
  destruct (np_matmul_inv _ _ _ _ _ _ SsF SCf) as (r & Er & Sr & Hr).
  rewrite Er; cbn [bind].
  destruct (reshape_ok r ([b] ++ [] ++ [])) as [r2 Er2]; [rewrite Sr, !nprod_app, nprod2, nprod0; lia|].
  rewrite Er2; cbn [bind]. pose proof (reshape_shape _ _ _ Er2) as Sr2. cbn [app] in Sr2.
  unfold bop. rewrite HO, Sr2. cbn [bshape rev app brev].
  eexists. split; [reflexivity|]. split; [reflexivity|]. intros x Hx.
  destruct (HF [x] (inb1 _ _ Hx)) as (Y & EY & HY). destruct (HS' x Hx) as (X & E & G).
  assert (EXY : X = Y) by congruence. subst Y.
  exists X. split; [exact G|]. cbn [at_].

  rewrite bidx_nil, (bidx_id [b] [x]) by (apply inb1; auto). f_equal.
  pose proof (reshape_unflat2 r r2 [b] [] [] [x] [] [] Sr Er2 (inb1 _ _ Hx) inb_nil inb_nil) as U. cbn [app] in U. rewrite U.
  change (x :: [ravel [] []; ravel [] []]) with ([x] ++ [O; O]). rewrite Hr, nprod1. apply rsum_ext. intros a Ha.
  cbn [swapaxes_last at_]. rewrite swap_last_app2, HY. f_equal. apply (CF x a O); auto.
Qed.
End Post.

(** ** The workflow *)
Lemma rounded_crosswise F kern' kern k eta test train ix nn M N t w c q : rounded_kernel F kern' kern eta ->
  pointwise_kernel F kern k -> dataset test M -> dataset train N -> ndim test = ndim train ->
  feature_count test = F -> feature_count train = F ->
  shape ix = [t] -> (forall x, (x < t)%nat -> at_ ix [x] = Z.of_nat (c x) /\ (c x < M)%nat) ->
  index_matrix nn t w N q ->
  exists cw Kc, crosswise_tensor test train ix nn = Ok cw /\ kern' cw = Ok Kc /\ shape Kc = [t; w] /\
    forall x j, (x < t)%nat -> (j < w)%nat -> Rabs (at_ Kc [x; j] - kcov k test train (c x) (q x j)) <= eta.
Proof.
  intros RK [Hext Hk] Hd Hd' Hnd HF HF' Hix Hc [Hs H].
  destruct (crosswise_spec test train ix nn M N t w Hd Hd' Hnd) as (cw & E & Sp & Hv); auto.
  { congruence. }
  { intros x Hx. destruct (Hc x Hx) as [-> Hl]. apply in_range_of_nat; auto. }
  { intros x i Hx Hi. destruct (H x i Hx Hi) as [-> Hl]. apply in_range_of_nat; auto. }
  rewrite HF in *.
  destruct (Hk cw [t; w] Sp) as (K0 & EK & SK & HK). destruct (RK cw [t; w] Sp) as (Kc & K1 & E1 & E2 & S1 & S2 & R).
  assert (X : K0 = K1) by congruence. subst K1.
  exists cw, Kc. split; [auto|]. split; [auto|]. split; [auto|]. intros x j Hx Hj.
  specialize (R [x; j] (inb2 _ _ _ _ Hx Hj)). rewrite HK in R by (apply inb2; auto).
  replace (kcov k test train (c x) (q x j)) with (k (fun f => at_ cw ([x; j] ++ [f]))); [exact R|].
  apply Hext. intros f Hf. cbn [app]. destruct (H x j Hx Hj) as [E2' L2], (Hc x Hx) as [E1' L1].
  apply (Hv x j f); auto; [rewrite E1'|rewrite E2']; apply selects_of_nat; auto.
Qed.

Lemma rounded_pairwise F kern' kern k eta train nn N n w q : rounded_kernel F kern' kern eta ->
  pointwise_kernel F kern k -> dataset train N -> feature_count train = F -> index_matrix nn n w N q ->
  exists pw Kin, pairwise_tensor train nn = Ok pw /\ kern' pw = Ok Kin /\ shape Kin = [n; w; w] /\
    forall x i j, (x < n)%nat -> (i < w)%nat -> (j < w)%nat ->
      Rabs (at_ Kin [x; i; j] - kcov k train train (q x i) (q x j)) <= eta.
Proof.
  intros RK [Hext Hk] Hd HF [Hs H].
  destruct (pairwise_spec train nn N n w Hd Hs) as (pw & E & Sp & Hv).
  { intros x i Hx Hi. destruct (H x i Hx Hi) as [-> Hl]. apply in_range_of_nat; auto. }
  rewrite HF in *.
  destruct (Hk pw [n; w; w] Sp) as (K0 & EK & SK & HK). destruct (RK pw [n; w; w] Sp) as (Kc & K1 & E1 & E2 & S1 & S2 & R).
  assert (X : K0 = K1) by congruence. subst K1.
  exists pw, Kc. split; [auto|]. split; [auto|]. split; [auto|]. intros x i j Hx Hi Hj.
  specialize (R [x; i; j] (inb3 _ _ _ _ _ _ Hx Hi Hj)). rewrite HK in R by (apply inb3; auto).
  replace (kcov k train train (q x i) (q x j)) with (k (fun f => at_ pw ([x; i; j] ++ [f]))); [exact R|].
  apply Hext. intros f Hf. cbn [app].
  destruct (H x i Hx Hi) as [E1' L1], (H x j Hx Hj) as [E2' L2].
  apply (Hv x i j f); auto; [rewrite E1'|rewrite E2']; apply selects_of_nat; auto.
Qed.

Section Any.
Variables (gamma : R -> R) (kv : R -> R -> R).
Variable ls : lsolver.
Hypothesis EX : exact_solver ls.
Variable knn : dict nnval -> list point -> point -> nat -> list (nat * R).
Variable hnsw : nnval -> list point -> point -> nat -> list (nat * R).
Variable dist : dict nnval -> point -> point -> R.
Hypothesis Hsk : sklearn_ok knn dist.

(** The exact kernel with an arbitrary solver. *)
Lemma solver_any ls' (good : nat -> (nat -> nat -> R) -> Prop) en method kw w g K cur test train targets N M n ex :
  lower method = "exact"%string -> euclidean_kw kw -> nn_init en (rows_of train) n method kw = Ok w -> (0 < n <= N /\ 0 < M)%nat ->
  dataset test M -> dataset train N -> ndim test = ndim train -> feature_count test = feature_count train ->
  lk_ok K (feature_count train) cur [] -> shape targets = N :: ex -> no_coincidence ex [n] ->
  shape (gp_Kout g) = [] -> noise_fits (gp_noise g) M n ->
  (forall x U B, (x < M)%nat -> nearest_rows test train N x n (nbr knn hnsw w test x) ->
     (forall i j, (i < n)%nat -> (j < n)%nat -> U i j = nbr_matrix (lk_cov gamma kv K (feature_count train) cur []) (gp_noise g) train (nbr knn hnsw w test) x i j) ->
     (forall i j, (i < n)%nat -> (j < 1)%nat -> B i j = kcov (lk_cov gamma kv K (feature_count train) cur []) test train x (nbr knn hnsw w test x i)) ->
     exists X, ls' n 1%nat U B = Some X /\ good x X) ->
  exists mean var, regress_any ls' knn hnsw (Univariate (lib_model gamma kv g K cur)) test train w targets = Ok (mean, var) /\
    forall x, (x < M)%nat -> nearest_rows test train N x n (nbr knn hnsw w test x) /\
      exists X, good x X /\ forall e, inb ex e -> at_ mean (x :: e) = rsum n (fun i => X i O * at_ targets (nbr knn hnsw w test x i :: e)).
Proof.
  intros Hm He Hi Hn D1 D2 ND FC OK HT NC SK NF HS.
  destruct (lookup_rows knn hnsw dist Hsk en method kw w test train N M n Hm He Hi Hn D1 D2 FC) as (I & D & EG & CW & IM & NR).
  set (q := nbr knn hnsw w test) in *. set (k := lk_cov gamma kv K (feature_count train) cur []) in *.
  assert (PK : pointwise_kernel (feature_count train) (lk_call gamma kv K cur []) k) by (apply lk_pointwise; auto).
  destruct (crosswise_kernel (feature_count train) (lk_call gamma kv K cur []) k test train (arange M) (index_array n I) M N M n (fun x => x) q)
    as (cw & Kc & Ecw & EKc & SKc & HKc); auto.
  destruct (pairwise_kernel (feature_count train) (lk_call gamma kv K cur []) k train (index_array n I) N M n q PK D2 eq_refl IM)
    as (pw & Kin & Epw & EK & SKi & HKv).
  destruct (targets_take targets (index_array n I) N M n q ex HT IM) as (T & ETT & ST & HTv).
  destruct (perturb3 (gp_noise g) None Kin M n NF SKi) as (P & EP & SP & HP).
  assert (GS : forall x U B, (x < M)%nat -> (forall i j, (i < n)%nat -> (j < n)%nat -> U i j = at_ P [x; i; j]) ->
     (forall i j, (i < n)%nat -> (j < 1)%nat -> B i j = at_ Kc [x; i]) -> exists X, ls' n 1%nat U B = Some X /\ good x X).
  { intros x U B Hx HU HB. apply HS; auto.
    - intros i j Hi' Hj. rewrite HU, HP, HKv by auto. reflexivity.
    - intros i j Hi' Hj. rewrite HB by auto. apply HKc; auto. }
  destruct (mean_any ls' good P Kc T M n ex SP SKc ST NC GS) as (mean & Em & Sm & Hm').
  destruct (var_any ls' good P Kc (gp_Kout g) M n SP SKc SK GS) as (v & Ev & Sv & Hv').
  exists mean, (ndmap (Rmult (gp_var_scale g)) v). split.
  { unfold regress_any. rewrite (row_count_ok _ _ D1). cbn [bind]. rewrite EG. cbn [bind fst made_regress_from_indices]. rewrite CW.
    unfold regress_from_indices. rewrite Ecw. cbn [bind]. rewrite Epw. cbn [bind]. rewrite ETT. cbn [bind mm_kernel mm_gp lib_model].
    rewrite EK. cbn [bind]. rewrite EKc. cbn [bind]. unfold gp_posterior_mean. rewrite EP. cbn [bind]. rewrite Em. cbn [bind].
    unfold gp_posterior_variance, gp_opt_variance. rewrite EP. cbn [bind]. rewrite Ev. reflexivity. }
  intros x Hx. split; [apply NR; exact Hx|]. destruct (Hm' x Hx) as (X & G & V). exists X. split; [exact G|]. intros e He'.
  rewrite V by auto. apply rsum_ext. intros i Hi'. rewrite HTv by auto. reflexivity.
Qed.

Lemma rounded_any ls' kern' c eta delta numax en method kw w g K cur test train targets N M n ex Y :
  0 < c -> 0 <= eta <= 1 -> 0 <= delta -> INR n * eta < c ->
  lower method = "exact"%string -> euclidean_kw kw -> nn_init en (rows_of train) n method kw = Ok w -> (0 < n <= N /\ 0 < M)%nat ->
  dataset test M -> dataset train N -> ndim test = ndim train -> feature_count test = feature_count train ->
  lk_ok K (feature_count train) cur [] -> shape targets = N :: ex -> no_coincidence ex [n] ->
  0 <= Y -> (forall a e, (a < N)%nat -> inb ex e -> Rabs (at_ targets (a :: e)) <= Y) ->
  shape (gp_Kout g) = [] -> at_ (gp_Kout g) [] = 1 -> 0 <= gp_var_scale g ->
  noise_fits (gp_noise g) M n -> sound_noise (gp_noise g) train N M n ->
  (forall x i, (x < M)%nat -> (i < n)%nat -> noise_at (gp_noise g) None x i <= numax) ->
  (forall q x, (x < M)%nat -> (forall i, (i < n)%nat -> (q x i < N)%nat) ->
    (forall i j, (i < n)%nat -> (j < n)%nat -> q x i = q x j -> i = j) ->
    coercive n (nbr_matrix (lk_cov gamma kv K (feature_count train) cur []) (gp_noise g) train q x) c) ->
  rounded_solver ls' n (c - INR n * eta) (2 + numax) delta ->
  rounded_kernel (feature_count train) kern' (lk_call gamma kv K cur []) eta ->
  exists mean var mean' var',
    regress_any ls knn hnsw (Univariate (lib_model gamma kv g K cur)) test train w targets = Ok (mean, var) /\
    regress_any ls' knn hnsw (Univariate (mkMm g kern')) test train w targets = Ok (mean', var') /\
    shape mean' = shape mean /\ shape var' = shape var /\
    forall x, (x < M)%nat ->
      Rabs (at_ var' [x] - at_ var [x]) <= gp_var_scale g * (weight_err n c eta delta * (1 + eta) + INR n / c * eta) /\
      forall e, inb ex e -> Rabs (at_ mean' (x :: e) - at_ mean (x :: e)) <= weight_err n c eta delta * Y.
Proof.
  intros C0 ET DE NE Hm He Hi Hn D1 D2 ND FC OK HT NC Y0 YB SK K1 SC NF SN NM CO RS RK.
  destruct (regress_any_nbr gamma kv ls EX knn hnsw dist Hsk en method kw w g K cur [] test train targets N M n ex)
    as (mean & var & E & S1 & S2 & NS & V); auto.
  exists mean, var. fold (lib_model gamma kv g K cur) in E.
  destruct (lookup_rows knn hnsw dist Hsk en method kw w test train N M n Hm He Hi Hn D1 D2 FC) as (I & D & EG & CW & IM & NR).
  set (q := nbr knn hnsw w test) in *. set (k := lk_cov gamma kv K (feature_count train) cur []) in *.
  assert (PK : pointwise_kernel (feature_count train) (lk_call gamma kv K cur []) k) by (apply lk_pointwise; auto).
  destruct (rounded_crosswise (feature_count train) kern' (lk_call gamma kv K cur []) k eta test train (arange M) (index_array n I) M N M n (fun x => x) q)
    as (cw & Kc & Ecw & EKc & SKc & HKc); auto.
  destruct (rounded_pairwise (feature_count train) kern' (lk_call gamma kv K cur []) k eta train (index_array n I) N M n q RK PK D2 eq_refl IM)
    as (pw & Kin & Epw & EK & SKi & HKv).
  destruct (targets_take targets (index_array n I) N M n q ex HT IM) as (T & ETT & ST & HTv).
  destruct (perturb3 (gp_noise g) None Kin M n NF SKi) as (P & EP & SP & HP).
  set (A := fun x => nbr_matrix k (gp_noise g) train q x).
  set (A' := fun x i j => at_ P [x; i; j]).
  assert (HA : forall x, (x < M)%nat -> forall i j, (i < n)%nat -> (j < n)%nat -> Rabs (A' x i j - A x i j) <= eta).
  { intros x Hx i j Hi' Hj. unfold A', A, nbr_matrix, plus_diag. rewrite HP by auto.
    destruct (Nat.eqb i j); [|rewrite !Rplus_0_r; apply HKv; auto].
    match goal with |- Rabs ?e <= _ => replace e with (at_ Kin [x; i; j] - kcov k train train (q x i) (q x j)) by ring end. apply HKv; auto. }
  assert (k1 : forall X1 X2 x y, Rabs (kcov k X1 X2 x y) <= 1).
  { intros X1 X2 x y. unfold kcov, k. pose proof (lk_le_1 gamma kv K (feature_count train) cur (fun f => feature X1 x f - feature X2 y f) OK) as L.
    rewrite Rabs_pos_eq; lra. }
  assert (N0 : forall x i, (x < M)%nat -> (i < n)%nat -> 0 <= noise_at (gp_noise g) None x i).
  { intros x i Hx Hi'. destruct SN as [S|[S _]]; [left|]; apply S; auto. }
  assert (COx : forall x, (x < M)%nat -> coercive n (A x) c) by (intros x Hx; apply CO; auto; apply NR; auto).
  set (good := fun x (X : nat -> nat -> R) => near_solves n (A' x) (fun i => X i O) (fun i => at_ Kc [x; i]) delta).
  assert (GS : forall x U B, (x < M)%nat -> (forall i j, (i < n)%nat -> (j < n)%nat -> U i j = at_ P [x; i; j]) ->
     (forall i j, (i < n)%nat -> (j < 1)%nat -> B i j = at_ Kc [x; i]) -> exists X, ls' n 1%nat U B = Some X /\ good x X).
  { intros x U B Hx HU HB. destruct (RS 1%nat U B) as (X & EX' & NX).
    - apply (coercive_ext n (A' x)); [intros i j Hi' Hj; symmetry; apply HU; auto|].
      apply (coercive_near' n (A x)); [lra|apply COx; auto|apply HA; auto].
    - intros i j Hi' Hj. rewrite HU by auto. fold (A' x i j).
      replace (A' x i j) with ((A' x i j - A x i j) + A x i j) by ring. eapply Rle_trans; [apply Rabs_triang|].
      pose proof (HA x Hx i j Hi' Hj). assert (AB : Rabs (A x i j) <= 1 + numax); [|lra].
      unfold A, nbr_matrix, plus_diag. eapply Rle_trans; [apply Rabs_triang|]. pose proof (k1 train train (q x i) (q x j)).
      pose proof (N0 x i Hx Hi'). pose proof (NM x i Hx Hi').
      destruct (Nat.eqb i j); [rewrite (Rabs_pos_eq (noise_at _ _ _ _)) by auto|rewrite Rabs_R0]; lra.
    - intros i j Hi' Hj. rewrite HB by auto. pose proof (HKc x i Hx Hi') as R1. pose proof (k1 test train x (q x i)) as R2.
      replace (at_ Kc [x; i]) with ((at_ Kc [x; i] - kcov k test train x (q x i)) + kcov k test train x (q x i)) by ring.
      eapply Rle_trans; [apply Rabs_triang|]. lra.
    - exists X. split; [exact EX'|]. unfold good. intros i Hi'. pose proof (NX O Nat.lt_0_1 i Hi') as Z. cbn beta in Z.
      rewrite HB in Z by (auto; apply Nat.lt_0_1). rewrite (rsum_ext n (fun j => U i j * X j O) (fun j => A' x i j * X j O)) in Z; [exact Z|].
      intros j Hj. rewrite HU by auto. reflexivity. }
  destruct (mean_any ls' good P Kc T M n ex SP SKc ST NC GS) as (mean' & Em & Sm & Hm').
  destruct (var_any ls' good P Kc (gp_Kout g) M n SP SKc SK GS) as (v & Ev & Sv & Hv').
  exists mean', (ndmap (Rmult (gp_var_scale g)) v). split; [exact E|]. split.
  { unfold regress_any. rewrite (row_count_ok _ _ D1). cbn [bind]. rewrite EG. cbn [bind fst made_regress_from_indices]. rewrite CW.
    unfold regress_from_indices. rewrite Ecw. cbn [bind]. rewrite Epw. cbn [bind]. rewrite ETT. cbn [bind mm_kernel mm_gp].
    rewrite EK. cbn [bind]. rewrite EKc. cbn [bind]. unfold gp_posterior_mean. rewrite EP. cbn [bind]. rewrite Em. cbn [bind].
    unfold gp_posterior_variance, gp_opt_variance. rewrite EP. cbn [bind]. rewrite Ev. reflexivity. }
  split; [congruence|]. split; [cbn [ndmap shape]; congruence|]. intros x Hx.
  destruct (V x Hx) as (_ & Mx & (wv & SO & VE) & _).
  assert (k1x : forall i, (i < n)%nat -> Rabs (kcov k test train x (q x i)) <= 1) by (intros; apply k1).
  split.
  - destruct (Hv' x Hx) as (X & G & VV). rewrite VE. cbn [ndmap at_]. rewrite VV, K1.
    pose proof (perturbed_var n (A x) (A' x) (fun j => kcov k test train x (q x j)) (fun i => at_ Kc [x; i]) wv (fun i => X i O) c eta delta
      C0 (proj1 ET) DE NE (COx x Hx) SO k1x (HA x Hx) (fun i Hi' => HKc x i Hx Hi') G) as PV.
    replace (gp_var_scale g * (1 - rsum n (fun i => X i O * at_ Kc [x; i])) - gp_var_scale g * (1 - dot n wv (fun j => kcov k test train x (q x j))))
      with (gp_var_scale g * (- (dot n (fun i => X i O) (fun i => at_ Kc [x; i]) - dot n wv (fun j => kcov k test train x (q x j))))) by (unfold dot; ring).
    rewrite Rabs_mult, (Rabs_pos_eq (gp_var_scale g)), Rabs_Ropp by auto. apply Rmult_le_compat_l; auto.
  - intros e Hie. destruct (Hm' x Hx) as (X & G & VV). rewrite VV by auto.
    destruct (Mx e Hie) as (u & U & ->).
    rewrite (rsum_ext n _ (fun i => X i O * at_ targets (q x i :: e))) by (intros i Hi'; rewrite HTv by auto; reflexivity).
    apply (perturbed_mean n (A x) (A' x) (fun j => kcov k test train x (q x j)) (fun i => at_ Kc [x; i]) u (fun i => X i O) c eta delta
      (fun i => at_ targets (q x i :: e)) Y C0 (proj1 ET) DE NE (COx x Hx) U k1x (HA x Hx) (fun i Hi' => HKc x i Hx Hi') G Y0).
    intros i Hi'. apply YB; [apply NR; auto|auto].
Qed.
End Any.
