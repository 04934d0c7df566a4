(** Proofs about fast prediction (C23). *)
From Coq Require Import Lia Lra.
From Verif Require Import Base BaseFacts NdModel NdFacts RSum LinAlgModel LinAlgSpec LinAlgFacts
  GPModel GPProofs NoiseModel NoiseProofs MuyGPSModel GPSpec MuyGPSProofs GPTheorems ScaleSpec ScaleProofs.
Local Open Scope R_scope.

Lemma squeeze_none {A} (t : nd A) : (forall d, In d (shape t) -> d <> 1%nat) ->
  shape (squeeze t) = shape t /\ forall idx, inb (shape t) idx -> at_ (squeeze t) idx = at_ t idx.
Proof.
  intros H. unfold squeeze; cbn [shape at_]. split.
  - unfold squeeze_shape. induction (shape t) as [|d sh IH]; cbn; auto.
    destruct (Nat.eqb_spec d 1) as [->|]; cbn; [exfalso; apply (H 1%nat); cbn; auto|].
    f_equal. apply IH. intros; apply H; cbn; auto.
  - intros idx Hi. f_equal. revert idx Hi. induction (shape t) as [|d sh IH]; intros idx Hi; cbn.
    + apply inb_inv_nil in Hi; auto.
    + apply inb_inv_cons in Hi as (i & l & -> & Hi & Hl).
      destruct (Nat.eqb_spec d 1) as [->|]; [exfalso; apply (H 1%nat); cbn; auto|].
      f_equal. apply IH; auto. intros; apply H; cbn; auto.
Qed.

Section T.
Variable ls : lsolver.
Hypothesis Hls : exact_solver ls.

Lemma solve3 m Kin T3 b n r :
  noise_fits m b n -> shape Kin = [b; n; n] -> shape T3 = [b; n; r] ->
  (forall x, (x < b)%nat -> nonsingular n (noisy m Kin x)) ->
  exists K X, perturb m Kin None = Ok K /\ np_solve ls K T3 = Ok X /\ shape X = [b; n; r] /\
    forall x s, (x < b)%nat -> (s < r)%nat ->
      solves n (noisy m Kin x) (fun i => at_ X [x; i; s]) (fun i => at_ T3 [x; i; s]).
Proof.
  intros Hf HK HT Hns. destruct (perturb3 m None Kin b n Hf HK) as (K & EK & SK & HKv).
  assert (E : forall x i j, (x < b)%nat -> (i < n)%nat -> (j < n)%nat ->
     slice2 K [x] i j = noisy m Kin x i j).
  { intros x i j Hx Hi Hj. unfold slice2, noisy, plus_diag, rowmat. cbn [app]. apply HKv; auto. }
  destruct (np_solve_ok ls K T3 [b] n r SK HT) as [X EX].
  { intros x Hx. apply inb_inv1 in Hx as (x' & -> & Hx). apply Hls.
    apply (nonsingular_ext n (noisy m Kin x')); auto. intros; symmetry; auto. }
  exists K, X. split; auto. split; auto.
  destruct (np_solve_inv ls K T3 X [b] n r SK HT EX) as [SX HX]. split; auto.
  intros x s Hx Hs. destruct (HX [x]) as (Y & EY & HY); [apply inb1; auto|].
  pose proof (proj1 Hls _ _ _ _ _ EY s Hs) as Hsol. intros i Hi. specialize (Hsol i Hi).
  unfold slice2 in Hsol at 2. cbn [app] in *. rewrite <- Hsol. apply rsum_ext; intros j Hj.
  rewrite HY, E by auto. reflexivity.
Qed.

Lemma fast_mean3 Kcross C b n r : shape Kcross = [b; n] -> shape C = [b; n; r] ->
  exists t0, einsum_ij_ijk Kcross (atleast_3d C) = Ok t0 /\ shape t0 = [b; r] /\
   forall x s, (x < b)%nat -> at_ t0 [x; s] = rsum n (fun j => at_ Kcross [x; j] * at_ C [x; j; s]).
Proof.
  intros HK HC. rewrite (atleast_3d_3 C b n r) by auto. unfold einsum_ij_ijk. rewrite HK, HC, !edim_refl.
  eexists; split; [reflexivity|]. split; [reflexivity|]. intros x s Hx. cbn [at_].
  apply rsum_ext; intros j Hj. rewrite !eix_lt by auto. reflexivity.
Qed.

(** Multiple responses. *)
Lemma c23_multi g Kin Kcross T b n r C F M :
  b <> 1%nat -> n <> 1%nat -> r <> 1%nat -> r <> n ->
  noise_fits (gp_noise g) b n -> shape Kin = [b; n; n] -> shape Kcross = [b; n] -> shape T = [b; n; r] ->
  (forall x, (x < b)%nat -> symmetric n (rowmat Kin x)) ->
  gp_posterior_mean ls g Kin Kcross T None = Ok M ->
  gp_fast_coefficients ls g Kin T = Ok C ->
  gp_fast_posterior_mean Kcross C = Ok F ->
  nd_eq F M.
Proof.
  intros Hb Hn Hr Hrn Hf HK HC HT Hsym EM EC EF.
  destruct (gp_mean_inv ls Hls _ _ _ _ _ _ _ _ _ Hf HK HC HT (no_coincidence_1 r n Hrn) EM) as [SM HM].
  destruct (solve3 (gp_noise g) Kin T b n r Hf HK HT) as (K & X & EK & EX & SX & HX).
  { intros x Hx. apply (HM x Hx). }
  unfold gp_fast_coefficients in EC. rewrite EK in EC; cbn [bind] in EC.
  unfold fast_precompute, ndim in EC. rewrite HT in EC. cbn [List.length Nat.eqb] in EC.
  rewrite EX in EC; cbn [bind] in EC. inversion EC; subst C; clear EC.
  destruct (squeeze_none X) as [SS HS]. { rewrite SX. cbn. intuition congruence. }
  unfold gp_fast_posterior_mean, fast_posterior_mean in EF.
  destruct (fast_mean3 Kcross (squeeze X) b n r) as (t0 & E0 & S0 & H0); auto; [congruence|].
  rewrite E0 in EF; cbn [bind] in EF. inversion EF; subst F; clear EF.
  destruct (squeeze_none t0) as [SS0 HS0]. { rewrite S0. cbn. intuition congruence. }
  split; [congruence|]. rewrite SS0, S0. intros idx Hidx. apply inb_inv2 in Hidx as (x & s & -> & Hx & Hs).
  rewrite HS0 by (rewrite S0; apply inb2; auto). rewrite H0 by auto.
  destruct (HM x Hx) as (Hns & w & Hw & Hv). rewrite (Hv [s]) by (apply inb1; auto).
  rewrite (rsum_ext n _ (fun j => rowvec Kcross x j * at_ X [x; j; s])).
  2:{ intros j Hj. rewrite HS by (rewrite SX; apply inb3; auto). reflexivity. }
  symmetry. apply (symmetric_adjoint n (noisy (gp_noise g) Kin x) w (fun j => at_ X [x; j; s]) (rowvec Kcross x)
     (fun j => at_ T [x; j; s])); auto.
  intros i j Hi Hj. unfold noisy, plus_diag. rewrite (Hsym x Hx i j) by auto.
  rewrite (Nat.eqb_sym j i). destruct (Nat.eqb_spec i j) as [->|]; auto.
Qed.

(** A single response: two-axis targets, or a trailing axis of length one (which the
    fast path drops). *)
Lemma c23_single g Kin Kcross T b n C F M :
  b <> 1%nat -> n <> 1%nat ->
  noise_fits (gp_noise g) b n -> shape Kin = [b; n; n] -> shape Kcross = [b; n] -> univariate_shape T b n ->
  (forall x, (x < b)%nat -> symmetric n (rowmat Kin x)) ->
  gp_posterior_mean ls g Kin Kcross T None = Ok M ->
  gp_fast_coefficients ls g Kin T = Ok C ->
  gp_fast_posterior_mean Kcross C = Ok F ->
  shape F = [b] /\
  forall x, (x < b)%nat -> at_ F [x] = at_ M (if (ndim T =? 2)%nat then [x] else [x; O]).
Proof.
  intros Hb Hn Hf HK HC HT Hsym EM EC EF.
  set (T3 := if (ndim T =? 2)%nat then expand_last T else T).
  assert (ST3 : shape T3 = [b; n; 1%nat]).
  { unfold T3, ndim. destruct HT as [HT|HT]; rewrite HT; cbn; rewrite ?HT; reflexivity. }
  set (ex := skipn 2 (shape T)).
  assert (HTs : shape T = b :: n :: ex) by (unfold ex; destruct HT as [HT|HT]; rewrite HT; reflexivity).
  assert (Hnc : no_coincidence ex [n]).
  { unfold ex; destruct HT as [HT|HT]; rewrite HT; cbn [skipn]; [apply no_coincidence_nil|apply no_coincidence_1; auto]. }
  destruct (gp_mean_inv ls Hls _ _ _ _ _ _ _ _ _ Hf HK HC HTs Hnc EM) as [SM HM].
  destruct (solve3 (gp_noise g) Kin T3 b n 1 Hf HK ST3) as (K & X & EK & EX & SX & HX).
  { intros x Hx. apply (HM x Hx). }
  unfold gp_fast_coefficients in EC. rewrite EK in EC; cbn [bind] in EC.
  unfold fast_precompute in EC. fold T3 in EC.
  rewrite EX in EC; cbn [bind] in EC. inversion EC; subst C; clear EC.
  assert (SQ : shape (squeeze X) = [b; n]).
  { unfold squeeze; cbn [shape]. rewrite SX. unfold squeeze_shape. cbn [filter].
    destruct (Nat.eqb_spec b 1); [contradiction|]. destruct (Nat.eqb_spec n 1); [contradiction|]. reflexivity. }
  assert (AQ : forall x i, at_ (squeeze X) [x; i] = at_ X [x; i; O]).
  { intros x i. unfold squeeze; cbn [at_]. rewrite SX. cbn [unsqueeze_idx].
    destruct (Nat.eqb_spec b 1); [contradiction|]. destruct (Nat.eqb_spec n 1); [contradiction|]. reflexivity. }
  unfold gp_fast_posterior_mean, fast_posterior_mean in EF.
  apply bind_ok in EF as (t0 & E0 & EF). inversion EF; subst F; clear EF.
  assert (H0 : shape t0 = [b; 1%nat] /\ forall x, (x < b)%nat ->
     at_ t0 [x; O] = rsum n (fun j => at_ Kcross [x; j] * at_ X [x; j; O])).
  { unfold atleast_3d in E0. rewrite SQ in E0. unfold einsum_ij_ijk in E0. rewrite HC in E0.
    cbn [shape at_] in E0. rewrite !edim_refl in E0. inversion E0; subst t0; clear E0. cbn [shape at_].
    split; auto. intros x Hx. apply rsum_ext; intros j Hj. rewrite !eix_lt by auto. reflexivity || (cbn [at_]; rewrite <- AQ; reflexivity). }
  destruct H0 as [S0 H0].
  split.
  - unfold squeeze; cbn [shape]. rewrite S0. unfold squeeze_shape. cbn [filter].
    destruct (Nat.eqb_spec b 1); [contradiction|]. reflexivity.
  - intros x Hx. unfold squeeze; cbn [at_]. rewrite S0. cbn [unsqueeze_idx].
    destruct (Nat.eqb_spec b 1); [contradiction|]. cbn [unsqueeze_idx Nat.eqb]. rewrite H0 by auto.
    destruct (HM x Hx) as (Hns & w & Hw & Hv).
    assert (Hval : at_ M (if (ndim T =? 2)%nat then [x] else [x; O]) = rsum n (fun j => w j * at_ T3 [x; j; O])).
    { unfold T3, ndim, ex in *. destruct HT as [HT|HT]; rewrite HT in *; cbn [List.length Nat.eqb skipn] in *.
      - rewrite (Hv []) by constructor. apply rsum_ext; intros j Hj. unfold expand_last. cbn [at_ removelast]. reflexivity.
      - rewrite (Hv [O]) by (apply inb1; lia). reflexivity. }
    rewrite Hval. symmetry.
    apply (symmetric_adjoint n (noisy (gp_noise g) Kin x) w (fun j => at_ X [x; j; O]) (rowvec Kcross x)
     (fun j => at_ T3 [x; j; O])); auto.
    intros i j Hi Hj. unfold noisy, plus_diag. rewrite (Hsym x Hx i j) by auto.
    rewrite (Nat.eqb_sym j i). destruct (Nat.eqb_spec i j) as [->|]; auto.
Qed.

(** Totality of the fast path under the same hypotheses as the ordinary one. *)
Lemma c23_total g Kin Kcross T b n r :
  b <> 1%nat -> n <> 1%nat ->
  noise_fits (gp_noise g) b n -> shape Kin = [b; n; n] -> shape Kcross = [b; n] -> resp_shape T b n r ->
  (forall x, (x < b)%nat -> nonsingular n (noisy (gp_noise g) Kin x)) ->
  exists C F, gp_fast_coefficients ls g Kin T = Ok C /\ gp_fast_posterior_mean Kcross C = Ok F.
Proof.
  intros Hb Hn Hf HK HC HT Hns.
  set (T3 := if (ndim T =? 2)%nat then expand_last T else T).
  assert (ST3 : shape T3 = [b; n; r]).
  { unfold T3, ndim. destruct HT as [HT|[HT ->]]; rewrite HT; cbn; rewrite ?HT; reflexivity. }
  destruct (solve3 (gp_noise g) Kin T3 b n r Hf HK ST3 Hns) as (K & X & EK & EX & SX & HX).
  exists (squeeze X). unfold gp_fast_coefficients. rewrite EK; cbn [bind].
  unfold fast_precompute. fold T3. rewrite EX; cbn [bind].
  unfold gp_fast_posterior_mean, fast_posterior_mean, einsum_ij_ijk, atleast_3d.
  assert (SQ : shape (squeeze X) = if Nat.eqb r 1 then [b; n] else [b; n; r]).
  { unfold squeeze; cbn [shape]. rewrite SX. unfold squeeze_shape. cbn [filter].
    destruct (Nat.eqb_spec b 1); [contradiction|]. destruct (Nat.eqb_spec n 1); [contradiction|].
    destruct (Nat.eqb_spec r 1); reflexivity. }
  rewrite SQ, HC. destruct (Nat.eqb r 1); cbn [shape]; [|rewrite SQ]; rewrite !edim_refl; cbn [bind]; eauto.
Qed.

(** Findings: a single training row, or a single neighbour, with several responses. *)
Lemma c23_one_row g Kin Kcross T n r :
  n <> 1%nat -> r <> 1%nat -> r <> n ->
  noise_fits (gp_noise g) 1 n -> shape Kin = [1%nat; n; n] -> shape Kcross = [1%nat; n] -> shape T = [1%nat; n; r] ->
  nonsingular n (noisy (gp_noise g) Kin O) ->
  exists C, gp_fast_coefficients ls g Kin T = Ok C /\ gp_fast_posterior_mean Kcross C = Err ValueError.
Proof.
  intros Hn Hr Hrn Hf HK HC HT Hns.
  destruct (solve3 (gp_noise g) Kin T 1 n r Hf HK HT) as (K & X & EK & EX & SX & HX).
  { intros x Hx. replace x with O by lia. auto. }
  exists (squeeze X). unfold gp_fast_coefficients. rewrite EK; cbn [bind].
  unfold fast_precompute, ndim. rewrite HT. cbn [List.length Nat.eqb]. rewrite EX; cbn [bind]. split; auto.
  assert (SQ : shape (squeeze X) = [n; r]).
  { unfold squeeze; cbn [shape]. rewrite SX. unfold squeeze_shape. cbn [filter Nat.eqb negb].
    destruct (Nat.eqb_spec n 1); [contradiction|]. destruct (Nat.eqb_spec r 1); [contradiction|]. reflexivity. }
  unfold gp_fast_posterior_mean, fast_posterior_mean, einsum_ij_ijk, atleast_3d. rewrite SQ, HC. cbn [shape].
  unfold edim. destruct (Nat.eqb_spec n r); [congruence|]. destruct (Nat.eqb_spec n 1); [contradiction|].
  destruct (Nat.eqb_spec r 1); [contradiction|]. destruct (Nat.eqb_spec 1 n); reflexivity.
Qed.

Lemma c23_one_neighbour g Kin Kcross T b r :
  b <> 1%nat -> r <> 1%nat ->
  noise_fits (gp_noise g) b 1 -> shape Kin = [b; 1%nat; 1%nat] -> shape Kcross = [b; 1%nat] -> shape T = [b; 1%nat; r] ->
  (forall x, (x < b)%nat -> nonsingular 1 (noisy (gp_noise g) Kin x)) ->
  exists C F, gp_fast_coefficients ls g Kin T = Ok C /\ gp_fast_posterior_mean Kcross C = Ok F /\
    shape F = [b] /\ forall x, (x < b)%nat ->
      at_ F [x] = rsum r (fun s => at_ Kcross [x; O] * (at_ T [x; O; s] / noisy (gp_noise g) Kin x O O)).
Proof.
  intros Hb Hr Hf HK HC HT Hns.
  destruct (solve3 (gp_noise g) Kin T b 1 r Hf HK HT Hns) as (K & X & EK & EX & SX & HX).
  exists (squeeze X). unfold gp_fast_coefficients. rewrite EK; cbn [bind].
  unfold fast_precompute, ndim. rewrite HT. cbn [List.length Nat.eqb]. rewrite EX; cbn [bind].
  assert (SQ : shape (squeeze X) = [b; r]).
  { unfold squeeze; cbn [shape]. rewrite SX. unfold squeeze_shape. cbn [filter Nat.eqb negb].
    destruct (Nat.eqb_spec b 1); [contradiction|]. destruct (Nat.eqb_spec r 1); [contradiction|]. reflexivity. }
  assert (AQ : forall x s, at_ (squeeze X) [x; s] = at_ X [x; O; s]).
  { intros x i. unfold squeeze; cbn [at_]. rewrite SX. cbn [unsqueeze_idx Nat.eqb].
    destruct (Nat.eqb_spec b 1); [contradiction|]. destruct (Nat.eqb_spec r 1); [contradiction|]. reflexivity. }
  unfold gp_fast_posterior_mean, fast_posterior_mean, einsum_ij_ijk, atleast_3d. rewrite SQ, HC. cbn [shape].
  rewrite edim_refl. unfold edim. destruct (Nat.eqb_spec 1 r) as [E|_]; [congruence|]. cbn [Nat.eqb bind].
  eexists. split; [reflexivity|]. split; [reflexivity|].
  unfold squeeze at 1; cbn [shape]. unfold squeeze_shape. cbn [filter].
  destruct (Nat.eqb_spec b 1); [contradiction|]. cbn [negb Nat.eqb]. split; auto.
  intros x Hx. unfold squeeze at 1; cbn [at_ shape]. cbn [unsqueeze_idx].
  destruct (Nat.eqb_spec b 1); [contradiction|]. cbn [unsqueeze_idx Nat.eqb].
  apply rsum_ext; intros s Hs. rewrite !eix_lt by auto. cbn [eix Nat.eqb]. rewrite AQ.
  unfold eix. cbn [Nat.eqb]. f_equal.
  pose proof (HX x s Hx Hs O ltac:(lia)) as H1. cbn [rsum] in H1. rewrite Rplus_0_l in H1.
  assert (Hz : noisy (gp_noise g) Kin x O O <> 0).
  { intros Z. assert (1 = 0); [|lra]. apply (Hns x Hx (fun _ => 1)) with (j := O); [|lia].
    intros i Hi. cbn [rsum]. replace i with O by lia. rewrite Z. ring. }
  destruct (Nat.eqb_spec r 1); [contradiction|]. rewrite <- H1. field. auto.
Qed.

Lemma c23_one_row_shared g Kin Kcross T b n :
  b <> 1%nat -> n <> 1%nat ->
  noise_fits (gp_noise g) 1 n -> shape Kin = [1%nat; n; n] -> shape Kcross = [b; n] -> shape T = [1%nat; n; 1%nat] ->
  nonsingular n (noisy (gp_noise g) Kin O) ->
  exists C F c, gp_fast_coefficients ls g Kin T = Ok C /\ gp_fast_posterior_mean Kcross C = Ok F /\
    solves n (noisy (gp_noise g) Kin O) c (fun i => at_ T [O; i; O]) /\
    shape F = [b] /\ forall x, (x < b)%nat -> at_ F [x] = rsum n (fun j => at_ Kcross [x; j] * c j).
Proof.
  intros Hb Hn Hf HK HC HT Hns.
  destruct (solve3 (gp_noise g) Kin T 1 n 1 Hf HK HT) as (K & X & EK & EX & SX & HX).
  { intros x Hx. replace x with O by lia. auto. }
  exists (squeeze X). unfold gp_fast_coefficients. rewrite EK; cbn [bind].
  unfold fast_precompute, ndim. rewrite HT. cbn [List.length Nat.eqb]. rewrite EX; cbn [bind].
  assert (SQ : shape (squeeze X) = [n]).
  { unfold squeeze; cbn [shape]. rewrite SX. unfold squeeze_shape. cbn [filter Nat.eqb negb].
    destruct (Nat.eqb_spec n 1); [contradiction|]. reflexivity. }
  assert (AQ : forall i, at_ (squeeze X) [i] = at_ X [O; i; O]).
  { intros i. unfold squeeze; cbn [at_]. rewrite SX. cbn [unsqueeze_idx Nat.eqb].
    destruct (Nat.eqb_spec n 1); [contradiction|]. reflexivity. }
  unfold gp_fast_posterior_mean, fast_posterior_mean, einsum_ij_ijk, atleast_3d. rewrite SQ, HC. cbn [shape].
  rewrite (edim_refl n). unfold edim. destruct (Nat.eqb_spec b 1) as [E|_]; [congruence|]. cbn [Nat.eqb bind].
  eexists. exists (fun i => at_ X [O; i; O]). split; [reflexivity|]. split; [reflexivity|]. split.
  { apply HX; lia. }
  unfold squeeze at 1; cbn [shape]. unfold squeeze_shape. cbn [filter].
  destruct (Nat.eqb_spec b 1); [contradiction|]. cbn [negb Nat.eqb]. split; auto.
  intros x Hx. unfold squeeze at 1; cbn [at_ shape]. cbn [unsqueeze_idx].
  destruct (Nat.eqb_spec b 1); [contradiction|]. cbn [unsqueeze_idx Nat.eqb].
  apply rsum_ext; intros j Hj. rewrite !eix_lt by auto. rewrite AQ. reflexivity.
Qed.
End T.
