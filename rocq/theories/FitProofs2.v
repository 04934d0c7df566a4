(** Lemmas for C123: the analytic scale. *)
From Coq Require Import Lia Lra.
From Verif Require Import Base BaseFacts NdModel NdFacts RSum HyperModel NamedModel NamedSpec LinAlgModel LinAlgSpec LinAlgFacts Gauss
  GPModel NoiseModel MuyGPSModel GPSpec GPTheorems WellPosedProofs ScaleSpec ScaleProofs TensorModel TensorSpec TensorProofs KernelModel KernelSpec KernelCases
  NeighborsModel NeighborsSpec NeighborsProofs BatchProofs FlowModel FlowSpec FlowProofs PointwiseSpec LibSpec LibProofs
  MultiModel DriverModel WorkModel WorkSpec WorkProofs WorkLemmas BestSpec BestGram BestProofs CalibModel CalibProofs FarSpec FarProofs DupProofs
  SimplerSpec ExpoProofs NativeSpec NativeProofs FitSpec FitProofs.
Local Open Scope R_scope.

Section Scale.
Variables (gamma : R -> R) (kv : R -> R -> R).
Variable ls : lsolver.
Hypothesis EX : exact_solver ls.

Lemma scale_energy g it draws K cur nn train targets N b w q :
  gp_kind g = AnalyticScale it -> (it <= 1)%nat -> (0 < b)%nat -> (0 < w)%nat ->
  lk_ok K (feature_count train) cur [] -> dataset train N -> shape targets = [N] -> index_matrix nn b w N q ->
  noise_fits (gp_noise g) b w -> well_posed (gp_noise g) train b w q ->
  let k := lk_cov gamma kv K (feature_count train) cur [] in
  let y := fun c => at_ targets [c] in
  let z := fun x j => feature train (q x j) in
  exists s a,
    (forall x, (x < b)%nat -> best_fit k (gp_noise g) train x w (q x) y w (z x) (a x)) /\
    s = rsum b (fun x => penalised k (gp_noise g) train x w (q x) y w (z x) (a x)) / (INR b * INR w) /\
    0 <= s /\ (0 < s <-> exists x i, (x < b)%nat /\ (i < w)%nat /\ y (q x i) <> 0) /\
    (s = 0 -> optimize_scale_from_indices ls (lib_model gamma kv g K cur) draws nn train targets = Err ValueError) /\
    (0 < s -> exists g', optimize_scale_from_indices ls (lib_model gamma kv g K cur) draws nn train targets = Ok (lib_model gamma kv g' K cur) /\
       gp_var_scale g' = s /\ gp_noise g' = gp_noise g /\ gp_kind g' = gp_kind g /\ gp_Kout g' = gp_Kout g).
Proof.
  intros GK Hit Hb Hw OK D HT IM NF WP k y z.
  destruct (calib_tensors gamma kv g K cur nn train targets N b w q OK D HT IM) as (p & Kin & T & E1 & E2 & ET & S1 & ST & V1 & VT).
  assert (NM : forall x i j, (x < b)%nat -> (i < w)%nat -> (j < w)%nat -> noisy (gp_noise g) Kin x i j = nbr_matrix k (gp_noise g) train q x i j).
  { intros x i j Hx Hi Hj. unfold noisy, nbr_matrix, plus_diag, rowmat. rewrite V1 by auto. reflexivity. }
  assert (PDm : forall x, (x < b)%nat -> pd w (noisy (gp_noise g) Kin x)).
  { intros x Hx v Hv. rewrite (quad_ext w _ (nbr_matrix k (gp_noise g) train q x) v v).
    - apply (nbr_pd gamma kv K cur [] (gp_noise g) train b w q x OK WP Hx). exact Hv.
    - intros i j Hi Hj. apply NM; auto.
    - auto. }
  destruct (c33_formula ls EX g it None Kin T b w) as (s & Es & ML); auto; [left; exact ST|intros x Hx; apply pd_nonsingular; auto|].
  pose proof (ml_scale_pos b w _ _ _ Hb Hw PDm ML) as POS.
  assert (NNs : 0 <= s).
  { apply (c33_nonneg ls EX g it None Kin T b w s); auto; [left; exact ST|].
    intros x Hx v. destruct (classic_zero w v) as [Z|NZ].
    + unfold quad. rewrite (rsum_ext w _ (fun _ => 0)); [rewrite rsum_0; lra|]. intros i Hi.
      rewrite (rsum_ext w _ (fun _ => 0)); [apply rsum_0|]. intros j Hj. rewrite (Z i Hi). ring.
    + apply Rlt_le, PDm; auto. }
  destruct ML as (tq & (c & SO & ETQ) & EQs).
  assert (TV : forall x i, (x < b)%nat -> (i < w)%nat -> tgt T x i = y (q x i)).
  { intros x i Hx Hi. unfold tgt. rewrite ST, VT by auto. reflexivity. }
  assert (SO' : forall x, (x < b)%nat -> solves w (nbr_matrix k (gp_noise g) train (fun _ => q x) x) (c x) (fun j => y (q x j))).
  { intros x Hx i Hi. rewrite <- (TV x i Hx Hi), <- (SO x Hx i Hi). apply rsum_ext. intros j Hj. rewrite NM by auto. reflexivity. }
  assert (N0 : forall x j, (x < b)%nat -> (j < w)%nat -> 0 <= noise_at (gp_noise g) None x j).
  { intros x j Hx Hj. destruct (WP x Hx) as [P|[P _]]; [left|]; apply P; exact Hj. }
  destruct (optimize_scale_spec ls g it draws Kin T s GK Es) as [P1 P2].
  exists s, c. split; [|split; [|split; [exact NNs|split; [|split]]]].
  - intros x Hx. exact (fit_best gamma kv K cur (gp_noise g) train x w (q x) y (c x) OK (fun j Hj => N0 x j Hx Hj) (SO' x Hx)).
  - rewrite EQs, ETQ. f_equal. apply rsum_ext. intros x Hx.
    pose proof (fit_energy gamma kv K cur (gp_noise g) train x w (q x) y (c x) (SO' x Hx)) as FE. symmetry. eapply eq_trans; [exact FE|].
    unfold dot. apply rsum_ext. intros j Hj. rewrite TV by auto. ring.
  - rewrite POS. split; intros (x & i & Hx & Hi & NZ); exists x, i; (split; [exact Hx|split; [exact Hi|]]); rewrite TV in * by auto; exact NZ.
  - intros Z. unfold optimize_scale_from_indices. rewrite E1. cbn [bind]. unfold lib_model at 1. cbn [mm_kernel].
    unfold lib_model in E2. cbn [mm_kernel] in E2. rewrite E2. cbn [bind]. rewrite ET. cbn [bind mm_gp lib_model]. rewrite P2 by lra. reflexivity.
  - intros P. destruct (P1 P) as (g' & E' & G1 & G2 & G3 & G4 & G5). exists g'. split; [|auto].
    unfold optimize_scale_from_indices. rewrite E1. cbn [bind]. unfold lib_model at 1. cbn [mm_kernel].
    unfold lib_model in E2. cbn [mm_kernel] in E2. rewrite E2. cbn [bind]. rewrite ET. cbn [bind mm_gp lib_model]. rewrite E'. reflexivity.
Qed.
End Scale.
