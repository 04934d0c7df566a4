(** Lemmas for C107. *)
From Coq Require Import Lia Lra.
From Coq Require Import Permutation Sorted.
From Verif Require Import Base BaseFacts NdModel NdFacts RSum HyperModel NamedModel NamedSpec LinAlgModel LinAlgSpec LinAlgFacts Gauss
  GPModel NoiseModel MuyGPSModel GPSpec GPTheorems WellPosedProofs ScaleSpec ScaleProofs DownSampleProofs TensorModel TensorSpec TensorProofs
  KernelModel KernelSpec KernelCases
  NeighborsModel NeighborsSpec NeighborsProofs BatchProofs FlowModel FlowSpec FlowProofs PointwiseSpec LibSpec LibProofs
  MultiModel DriverModel WorkModel WorkSpec WorkProofs WorkLemmas BestSpec BestProofs BestGram CalibModel CalibSpec.
Local Open Scope R_scope.

Lemma expect_quad S pi n K (y c : nat -> nat -> R) sc : nonsingular n K ->
  (forall o, (o < S)%nat -> solves n K (c o) (fun i => y i o)) ->
  (forall i j, (i < n)%nat -> (j < n)%nat -> expect S pi (fun o => y i o * y j o) = sc * K i j) ->
  expect S pi (fun o => dot n (fun i => y i o) (c o)) = sc * INR n.
Proof.
  intros NS SO MO.
  destruct (proj1 (proj2 gauss_exact n n K delta) NS) as [X EX].
  pose proof (proj1 gauss_exact n n K delta X EX) as HX. cbn beta in HX.
  assert (C : forall o, (o < S)%nat -> forall i, (i < n)%nat -> c o i = rsum n (fun j => X i j * y j o)).
  { intros o Ho i Hi. apply (solves_unique n K (c o) (fun i => rsum n (fun j => X i j * y j o)) (fun i => y i o) NS (SO o Ho)); [|exact Hi].
    intros a Ha. rewrite (rsum_ext n _ (fun j => rsum n (fun l => y l o * (K a j * X j l)))).
    2:{ intros j Hj. rewrite <- rsum_scal. apply rsum_ext. intros; ring. }
    rewrite rsum_swap. rewrite (rsum_ext n _ (fun l => delta a l * y l o)).
    2:{ intros l Hl. rewrite rsum_scal, (HX l Hl a Ha). ring. }
    apply (rsum_delta_l n a (fun l => y l o) Ha). }
  rewrite (expect_ext S pi _ (fun o => rsum n (fun i => rsum n (fun j => X i j * (y j o * y i o))))).
  2:{ intros o Ho. unfold dot. apply rsum_ext. intros i Hi. rewrite (C o Ho i Hi), <- rsum_scal. apply rsum_ext. intros; ring. }
  rewrite expect_rsum.
  rewrite (rsum_ext n _ (fun i => rsum n (fun j => sc * (K j i * X i j)))).
  2:{ intros i Hi. rewrite expect_rsum. apply rsum_ext. intros j Hj. rewrite expect_scal, MO by auto. ring. }
  rewrite rsum_swap. rewrite (rsum_ext n _ (fun _ => sc)).
  2:{ intros j Hj. rewrite rsum_scal, (HX j Hj j Hj), delta_refl. ring. }
  rewrite rsum_const. ring.
Qed.

Definition ok_or (r : result R) : R := match r with Ok v => v | Err _ => 0 end.

(** The total quadratic form of several neighbourhoods. *)
Lemma expect_total S pi b n K (y : nat -> nat -> nat -> R) (q : nat -> R) sc :
  (forall x, (x < b)%nat -> nonsingular n (K x)) ->
  (forall o, (o < S)%nat -> total_quad b n K (y o) (q o)) ->
  (forall x i j, (x < b)%nat -> (i < n)%nat -> (j < n)%nat -> expect S pi (fun o => y o x i * y o x j) = sc * K x i j) ->
  expect S pi q = sc * (INR b * INR n).
Proof.
  intros NS TQ MO.
  assert (SX : forall x, (x < b)%nat -> exists X, gauss n n (K x) delta = Some X).
  { intros x Hx. apply (proj1 (proj2 gauss_exact n n (K x) delta)). auto. }
  set (inv := fun x => match gauss n n (K x) delta with Some X => X | None => fun _ _ => 0 end).
  set (c := fun o x i => rsum n (fun j => inv x i j * y o x j)).
  assert (SC : forall o x, (x < b)%nat -> solves n (K x) (c o x) (y o x)).
  { intros o x Hx a Ha. destruct (SX x Hx) as [X E]. pose proof (proj1 gauss_exact n n (K x) delta X E) as HX. cbn beta in HX.
    unfold c, inv. rewrite E. rewrite (rsum_ext n _ (fun j => rsum n (fun l => y o x l * (K x a j * X j l)))).
    2:{ intros j Hj. rewrite <- rsum_scal. apply rsum_ext. intros; ring. }
    rewrite rsum_swap. rewrite (rsum_ext n _ (fun l => delta a l * y o x l)).
    2:{ intros l Hl. rewrite rsum_scal, (HX l Hl a Ha). ring. }
    apply (rsum_delta_l n a (fun l => y o x l) Ha). }
  rewrite (expect_ext S pi q (fun o => rsum b (fun x => dot n (y o x) (c o x)))).
  2:{ intros o Ho. destruct (TQ o Ho) as (c' & HC & ->). apply rsum_ext. intros x Hx. unfold dot. apply rsum_ext. intros i Hi.
      rewrite (solves_unique n (K x) (c' x) (c o x) (y o x) (NS x Hx) (HC x Hx) (SC o x Hx) i Hi). reflexivity. }
  rewrite expect_rsum. rewrite (rsum_ext b _ (fun _ => sc * INR n)).
  - rewrite rsum_const. ring.
  - intros x Hx. apply (expect_quad S pi n (K x) (fun i o => y o x i) (fun o => c o x) sc (NS x Hx)); auto.
Qed.

Lemma sorted_perm_eq (l idx : list nat) : Permutation l idx -> Sorted le l -> Sorted le idx -> l = idx.
Proof.
  intros PP S' SS. apply Sorted_StronglySorted in S'; [|intros a0 b0 c0 Hab Hbc; eapply Nat.le_trans; eauto].
  apply Sorted_StronglySorted in SS; [|intros a0 b0 c0 Hab Hbc; eapply Nat.le_trans; eauto].
  revert idx PP SS. induction S' as [|a l Hl IH Ha]; intros idx PP SS.
  - apply Permutation_nil in PP. auto.
  - destruct SS as [|a' l' Hl' Ha']; [apply Permutation_sym, Permutation_nil in PP; discriminate|].
    assert (a = a').
    { rewrite Forall_forall in Ha, Ha'. apply Nat.le_antisymm.
      - assert (In a' (a :: l)) as I1 by (eapply Permutation_in; [symmetry; exact PP|left; auto]).
        destruct I1 as [->|I1]; [lia|apply Ha; auto].
      - assert (In a (a' :: l')) as I2 by (eapply Permutation_in; [exact PP|left; auto]).
        destruct I2 as [->|I2]; [lia|apply Ha'; auto]. }
    subst a'. f_equal. apply IH; auto. eapply Permutation_cons_inv; eauto.
Qed.

Section Solver.
Variable ls : lsolver.
Hypothesis EX : exact_solver ls.

Lemma unbiased S pi g it kw Kin T b n sc :
  (it <= 1)%nat -> (0 < b)%nat -> (0 < n)%nat -> noise_fits (gp_noise g) b n -> shape Kin = [b; n; n] ->
  (forall o, (o < S)%nat -> univariate_shape (T o) b n) ->
  (forall x, (x < b)%nat -> nonsingular n (noisy (gp_noise g) Kin x)) ->
  target_moments S pi T b n (noisy (gp_noise g) Kin) sc ->
  exists h, (forall o, (o < S)%nat -> analytic_scale_opt ls g it Kin (T o) kw = Ok (h o)) /\ expect S pi h = sc.
Proof.
  intros Hit Hb Hn NF SK ST NS MO. exists (fun o => ok_or (analytic_scale_opt ls g it Kin (T o) kw)).
  assert (H : forall o, (o < S)%nat -> exists s, analytic_scale_opt ls g it Kin (T o) kw = Ok s /\ ml_scale b n (noisy (gp_noise g) Kin) (tgt (T o)) s).
  { intros o Ho. apply (c33_formula ls EX); auto. }
  split; [intros o Ho; destruct (H o Ho) as (s & E & _); rewrite E; reflexivity|].
  assert (NZ : INR b * INR n <> 0) by (apply Rmult_integral_contrapositive_currified; apply not_0_INR; lia).
  assert (E : expect S pi (fun o => (INR b * INR n) * ok_or (analytic_scale_opt ls g it Kin (T o) kw)) = sc * (INR b * INR n)).
  { apply (expect_total S pi b n (noisy (gp_noise g) Kin) (fun o => tgt (T o))); auto.
    intros o Ho. destruct (H o Ho) as (s & E & q & TQ & ->). rewrite E. cbn [ok_or].
    replace (INR b * INR n * (q / (INR b * INR n))) with q by (field; split; apply not_0_INR; lia). exact TQ. }
  rewrite expect_scal in E. apply (Rmult_eq_reg_l (INR b * INR n)); [lra|exact NZ].
Qed.

Lemma twice_biased S pi g kw Kin T b n sc :
  (0 < b)%nat -> (0 < n)%nat -> noise_fits (gp_noise g) b n -> shape Kin = [b; n; n] -> probability S pi ->
  (forall o, (o < S)%nat -> univariate_shape (T o) b n) ->
  (forall x, (x < b)%nat -> nonsingular n (noisy (gp_noise g) Kin x)) ->
  target_moments S pi T b n (noisy (gp_noise g) Kin) sc ->
  (forall o, (o < S)%nat -> exists s, 0 < s /\ analytic_scale_opt ls g 1 Kin (T o) kw = Ok s) ->
  exists h, (forall o, (o < S)%nat -> analytic_scale_opt ls g 2 Kin (T o) kw = Ok (h o)) /\ expect S pi h = (sc + 1) / 2.
Proof.
  intros Hb Hn NF SK [P1 P2] ST NS MO PO.
  destruct (unbiased S pi g 1 kw Kin T b n sc) as (h & H & E); auto.
  exists (fun o => / 2 * h o + / 2 * 1). split.
  - intros o Ho. destruct (PO o Ho) as (s & SP & Es). pose proof (H o Ho) as Eh. rewrite Es in Eh. assert (s = h o) by congruence. subst s.
    rewrite (c33_two_iterations ls EX g kw Kin (T o) b n (h o)); auto. f_equal. field.
  - rewrite expect_plus, !expect_scal, E. unfold expect. rewrite (rsum_ext S _ pi) by (intros; ring). rewrite P1. lra.
Qed.

Lemma down_unbiased S pi g down draws Kin T b n sc :
  noise_fits (gp_noise g) b n -> shape Kin = [b; n; n] -> (0 < b)%nat -> (0 < down < n)%nat ->
  (forall o, (o < S)%nat -> univariate_shape (T o) b n) ->
  (forall x, (x < b)%nat -> pd n (noisy (gp_noise g) Kin x)) ->
  NoDup (draws O) -> List.length (draws O) = down -> (forall a, In a (draws O) -> (a < n)%nat) ->
  target_moments S pi T b n (noisy (gp_noise g) Kin) sc ->
  exists h, (forall o, (o < S)%nat -> downsample_scale_opt ls g down 1 draws Kin (T o) = Ok (Some (h o))) /\ expect S pi h = sc.
Proof.
  intros NF SK Hb Hd ST PD ND LD RD MO.
  exists (fun o => match downsample_scale_opt ls g down 1 draws Kin (T o) with Ok (Some v) => v | _ => 0 end).
  set (idx := sort_nat (draws O)).
  assert (PI : Permutation (draws O) idx) by apply sort_nat_perm.
  assert (LI : List.length idx = down) by (rewrite <- LD; symmetry; apply Permutation_length; exact PI).
  assert (NI : NoDup idx) by (eapply Permutation_NoDup; eauto).
  assert (RI : forall a, In a idx -> (a < n)%nat) by (intros a Ha; apply RD; eapply Permutation_in; [symmetry; exact PI|exact Ha]).
  assert (NTH : forall i, (i < down)%nat -> (nth i idx O < n)%nat) by (intros i Hi; apply RI, nth_In; lia).
  assert (PDS : forall x, (x < b)%nat -> pd down (submat (noisy (gp_noise g) Kin x) idx)).
  { intros x Hx. rewrite <- LI. apply (pd_sub n); auto. }
  assert (H : forall o, (o < S)%nat -> exists q, downsample_scale_opt ls g down 1 draws Kin (T o) = Ok (Some (q / (INR down * INR b))) /\
     total_quad b down (fun x => submat (noisy (gp_noise g) Kin x) idx) (fun x i => tgt (T o) x (nth i idx O)) q).
  { intros o Ho.
    assert (RS : resp_shape (T o) b n 1) by (destruct (ST o Ho); [right; auto|left; auto]).
    destruct (c56_downsample ls EX g down 1 draws Kin (T o) b n 1) as (scales & m & E & MED & F2); auto.
    { intros k Hk. replace k with O by lia. auto. }
    cbn [seq] in F2. inversion F2 as [|k q ks qs HQ HR EQ1 EQ2]. subst. inversion HR. subst.
    destruct MED as (s & PS & _ & ME). apply Permutation_length_1_inv in PS. subst s.
    assert (m = q). { destruct ME as [(k & L & ->)|(k & L & _)]; cbn in L; [replace k with O by lia; reflexivity|lia]. }
    subst m. exists q. split; [exact E|].
    destruct HQ as (idx' & P' & S' & c & HC & EQ).
    assert (idx' = idx).
    { assert (Permutation idx' idx) as PP by (transitivity (draws O); [symmetry; exact P'|exact PI]).
      assert (SS : Sorted le idx) by apply sort_nat_sorted.
      apply sorted_perm_eq; auto. }
    subst idx'. rewrite LI in HC, EQ. exists (fun x i => c x O i). split.
    - intros x Hx i Hi. specialize (HC x O Hx ltac:(lia)). cbn beta in HC. rewrite (HC i Hi).
      unfold resp, tgt. destruct (ST o Ho) as [-> | ->]; reflexivity.
    - rewrite EQ. apply rsum_ext. intros x Hx. cbn [rsum]. rewrite Rplus_0_l. unfold dot. apply rsum_ext. intros i Hi.
      unfold resp, tgt. destruct (ST o Ho) as [-> | ->]; reflexivity. }
  split; [intros o Ho; destruct (H o Ho) as (q & E & _); rewrite E; reflexivity|].
  assert (NZ : INR b * INR down <> 0) by (apply Rmult_integral_contrapositive_currified; apply not_0_INR; lia).
  assert (E : expect S pi (fun o => (INR b * INR down) * match downsample_scale_opt ls g down 1 draws Kin (T o) with Ok (Some v) => v | _ => 0 end)
     = sc * (INR b * INR down)).
  { apply (expect_total S pi b down (fun x => submat (noisy (gp_noise g) Kin x) idx) (fun o x i => tgt (T o) x (nth i idx O))).
    - intros x Hx. apply pd_nonsingular. auto.
    - intros o Ho. destruct (H o Ho) as (q & E & TQ). rewrite E.
      replace (INR b * INR down * (q / (INR down * INR b))) with q by (field; split; apply not_0_INR; lia). exact TQ.
    - intros x i j Hx Hi Hj. unfold submat. apply MO; auto. }
  rewrite expect_scal in E. apply (Rmult_eq_reg_l (INR b * INR down)); [lra|exact NZ].
Qed.
End Solver.

(** A positive estimate, unless every listed target is zero. *)
Lemma ml_scale_pos b n K y s : (0 < b)%nat -> (0 < n)%nat -> (forall x, (x < b)%nat -> pd n (K x)) -> ml_scale b n K y s ->
  (0 < s <-> exists x i, (x < b)%nat /\ (i < n)%nat /\ y x i <> 0).
Proof.
  intros Hb Hn PD (q & (c & SO & ->) & ->).
  assert (NP : 0 < INR b * INR n) by (apply Rmult_lt_0_compat; apply lt_0_INR; lia).
  assert (EQ : forall x, (x < b)%nat -> dot n (y x) (c x) = quad n (K x) (c x)).
  { intros x Hx. rewrite (quad_solves n (K x) (c x) (y x) (SO x Hx)). apply dot_comm. }
  assert (NN : forall x, (x < b)%nat -> 0 <= dot n (y x) (c x)).
  { intros x Hx. rewrite EQ by auto. destruct (classic_zero n (c x)) as [Z|NZ].
    - unfold quad. rewrite (rsum_ext n _ (fun _ => 0)); [rewrite rsum_0; lra|]. intros i Hi.
      rewrite (rsum_ext n _ (fun _ => 0)); [apply rsum_0|]. intros j Hj. rewrite (Z i Hi). ring.
    - apply Rlt_le, PD; auto. }
  split.
  - intros P.
    destruct (classic_zero b (fun x => dot n (y x) (c x))) as [Z|(x & Hx & NZ)].
    + exfalso. rewrite (rsum_ext b _ (fun _ => 0)) in P by auto. rewrite rsum_0 in P. unfold Rdiv in P. rewrite Rmult_0_l in P. lra.
    + destruct (classic_zero n (y x)) as [Z|(i & Hi & NI)]; [|exists x, i; auto].
      exfalso. apply NZ. unfold dot. rewrite (rsum_ext n _ (fun _ => 0)); [apply rsum_0|]. intros i Hi. rewrite (Z i Hi). ring.
  - intros (x & i & Hx & Hi & NZ). apply Rdiv_lt_0_compat; [|exact NP].
    apply (Rlt_le_trans _ (dot n (y x) (c x))); [|apply (rsum_term_le b (fun x => dot n (y x) (c x)) x); auto].
    rewrite EQ by auto. apply PD; auto. destruct (classic_zero n (c x)) as [Z|NC]; [|exact NC].
    exfalso. apply NZ. rewrite <- (SO x Hx i Hi). rewrite (rsum_ext n _ (fun _ => 0)); [apply rsum_0|].
    intros j Hj. rewrite (Z j Hj). ring.
Qed.

Section Workflow.
Variables (gamma : R -> R) (kv : R -> R -> R).
Variable ls : lsolver.
Hypothesis EX : exact_solver ls.
Notation cov K F cur := (lk_cov gamma kv K F cur []).

Lemma uniform_noise_const m x i x' i' : uniform_noise m -> noise_at m None x i = noise_at m None x' i'.
Proof. intros [-> | [v ->]]; reflexivity. Qed.

(** Tensors of the listed rows. *)
Lemma calib_tensors g K cur nn train (targets : nd R) N b w q :
  lk_ok K (feature_count train) cur [] -> dataset train N -> shape targets = [N] -> index_matrix nn b w N q ->
  exists p Kin T, pairwise_tensor train nn = Ok p /\ mm_kernel (lib_model gamma kv g K cur) p = Ok Kin /\ take targets nn = Ok T /\
    shape Kin = [b; w; w] /\ shape T = [b; w] /\
    (forall x i j, (x < b)%nat -> (i < w)%nat -> (j < w)%nat ->
       at_ Kin [x; i; j] = kcov (cov K (feature_count train) cur) train train (q x i) (q x j)) /\
    (forall x i, (x < b)%nat -> (i < w)%nat -> at_ T [x; i] = at_ targets [q x i]).
Proof.
  intros OK D HT IM. pose proof (lk_pointwise gamma kv K (feature_count train) cur [] OK) as PW.
  destruct (pairwise_kernel (feature_count train) _ _ train nn N b w q PW D eq_refl IM) as (p & Kin & E1 & E2 & S1 & V1).
  destruct IM as [Hs H]. destruct (take_ok targets nn N [] HT) as (T & E & ST & Hv).
  { intros idx Hi. rewrite Hs in Hi. apply inb_inv2 in Hi as (x & j & -> & Hx & Hj).
    destruct (H x j Hx Hj) as [-> Hl]. apply in_range_of_nat; auto. }
  exists p, Kin, T. split; [exact E1|]. split; [exact E2|]. split; [exact E|]. split; [exact S1|].
  split; [rewrite ST, Hs; reflexivity|]. split; [exact V1|].
  intros x j Hx Hj. destruct (H x j Hx Hj) as [E0 Hl].
  apply (Hv [x; j] [] (q x j)); [rewrite Hs; apply inb2; auto|rewrite E0; apply selects_of_nat; auto].
Qed.

(** The estimate of every outcome, and its expected value. *)
Lemma unbiased_from_indices S pi f y g it draws K cur nn test train targets N M b w q sc :
  gp_kind g = AnalyticScale it -> (it <= 1)%nat -> (0 < b)%nat -> (0 < w)%nat -> uniform_noise (gp_noise g) ->
  lk_ok K (feature_count train) cur [] -> dataset train N -> index_matrix nn b w N q -> distinct_lists b w q ->
  well_posed (gp_noise g) train b w q ->
  data_moments S pi f y (cov K (feature_count train) cur) (gp_noise g) sc test train M N ->
  (forall o, (o < S)%nat -> shape (targets o) = [N] /\ forall a, (a < N)%nat -> at_ (targets o) [a] = y a o) ->
  exists h, expect S pi h = sc /\ forall o, (o < S)%nat -> 0 <= h o /\
    (0 < h o <-> exists x i, (x < b)%nat /\ (i < w)%nat /\ y (q x i) o <> 0) /\
    (h o = 0 -> optimize_scale_from_indices ls (lib_model gamma kv g K cur) draws nn train (targets o) = Err ValueError) /\
    (0 < h o -> exists g', optimize_scale_from_indices ls (lib_model gamma kv g K cur) draws nn train (targets o) = Ok (lib_model gamma kv g' K cur) /\
       gp_scale g' = h o /\ gp_var_scale g' = h o /\ gp_noise g' = gp_noise g /\ gp_kind g' = gp_kind g /\ gp_Kout g' = gp_Kout g).
Proof.
  intros GK Hit Hb Hw UN OK D IM DL WP [DP D1 D2 D3] HT.
  pose proof (lk_pointwise gamma kv K (feature_count train) cur [] OK) as PW.
  destruct (pairwise_kernel (feature_count train) _ _ train nn N b w q PW D eq_refl IM) as (p & Kin & E1 & E2 & S1 & V1).
  set (T := fun o => match take (targets o) nn with Ok t => t | Err _ => targets o end).
  assert (HTo : forall o, (o < S)%nat -> take (targets o) nn = Ok (T o) /\ shape (T o) = [b; w] /\
      forall x i, (x < b)%nat -> (i < w)%nat -> at_ (T o) [x; i] = y (q x i) o).
  { intros o Ho. destruct (HT o Ho) as [HS HV].
    destruct (calib_tensors g K cur nn train (targets o) N b w q OK D HS IM) as (p' & Kin' & t & _ & _ & ET & _ & ST & _ & VT).
    unfold T. rewrite ET. split; [reflexivity|]. split; [exact ST|]. intros x i Hx Hi. rewrite VT by auto. apply HV. apply IM; auto. }
  assert (NF : noise_fits (gp_noise g) b w) by (destruct UN as [-> | [v ->]]; exact Logic.I).
  assert (NM : forall x i j, (x < b)%nat -> (i < w)%nat -> (j < w)%nat ->
     noisy (gp_noise g) Kin x i j = nbr_matrix (cov K (feature_count train) cur) (gp_noise g) train q x i j).
  { intros x i j Hx Hi Hj. unfold noisy, nbr_matrix, plus_diag, rowmat. rewrite V1 by auto. reflexivity. }
  assert (PDm : forall x, (x < b)%nat -> pd w (noisy (gp_noise g) Kin x)).
  { intros x Hx v Hv. rewrite (quad_ext w _ (nbr_matrix (cov K (feature_count train) cur) (gp_noise g) train q x) v v).
    - apply (nbr_pd gamma kv K cur [] (gp_noise g) train b w q x OK WP Hx). exact Hv.
    - intros i j Hi Hj. apply NM; auto.
    - auto. }
  destruct (unbiased ls EX S pi g it None Kin T b w sc) as (h & HH & EH); auto.
  { intros o Ho. left. apply HTo; auto. }
  { intros x Hx. apply pd_nonsingular. auto. }
  { intros x i j Hx Hi Hj.
    rewrite (expect_ext S pi _ (fun o => y (q x i) o * y (q x j) o)).
    2:{ intros o Ho. destruct (HTo o Ho) as (_ & ST & VT). unfold tgt. rewrite ST, !VT by auto. reflexivity. }
    rewrite D3 by (apply IM; auto). f_equal. unfold noisy, plus_diag, rowmat. rewrite V1 by auto. f_equal.
    destruct (Nat.eqb_spec i j) as [->|NE].
    - rewrite Nat.eqb_refl. apply uniform_noise_const; auto.
    - destruct (Nat.eqb_spec (q x i) (q x j)) as [EQ|_]; [exfalso; apply NE, (DL x i j); auto|reflexivity]. }
  exists h. split; [exact EH|]. intros o Ho. destruct (HTo o Ho) as (ET & ST & VT).
  destruct (optimize_scale_spec ls g it draws Kin (T o) (h o) GK (HH o Ho)) as [P1 P2].
  split; [|split; [|split]].
  - apply (c33_nonneg ls EX g it None Kin (T o) b w (h o)); auto; [left; exact ST|].
    intros x Hx v. destruct (classic_zero w v) as [Z|NZ].
    + unfold quad. rewrite (rsum_ext w _ (fun _ => 0)); [rewrite rsum_0; lra|]. intros i Hi.
      rewrite (rsum_ext w _ (fun _ => 0)); [apply rsum_0|]. intros j Hj. rewrite (Z i Hi). ring.
    + apply Rlt_le, PDm; auto.
  - destruct (c33_formula ls EX g it None Kin (T o) b w) as (s & Es & ML); auto; [left; exact ST|intros x Hx; apply pd_nonsingular; auto|].
    assert (s = h o) by (pose proof (HH o Ho); congruence). subst s. rewrite (ml_scale_pos b w _ _ _ Hb Hw PDm ML).
    split; intros (x & i & Hx & Hi & NZ); exists x, i; (split; [auto|split; [auto|]]);
      [rewrite <- (VT x i Hx Hi)|rewrite <- (VT x i Hx Hi) in NZ]; unfold tgt in *; rewrite ST in *; exact NZ.
  - intros Z. unfold optimize_scale_from_indices. rewrite E1. cbn [bind]. unfold lib_model at 1. cbn [mm_kernel].
    rewrite E2. cbn [bind]. rewrite ET. cbn [bind mm_gp lib_model]. rewrite P2 by lra. reflexivity.
  - intros P. destruct (P1 P) as (g' & E' & G1 & G2 & G3 & G4 & G5). exists g'. split; [|auto].
    unfold optimize_scale_from_indices. rewrite E1. cbn [bind]. unfold lib_model at 1. cbn [mm_kernel].
    rewrite E2. cbn [bind]. rewrite ET. cbn [bind mm_gp lib_model]. rewrite E'. reflexivity.
Qed.

Variable knn : dict nnval -> list point -> point -> nat -> list (nat * R).
Variable hnsw : nnval -> list point -> point -> nat -> list (nat * R).
Variable dist : dict nnval -> point -> point -> R.
Hypothesis Hsk : sklearn_ok knn dist.

Lemma calibrated S pi f y en method kw wr g it draws K cur nn test train targets N M n b w q sc :
  lower method = "exact"%string -> euclidean_kw kw -> nn_init en (rows_of train) n method kw = Ok wr -> (0 < n <= N /\ 0 < M)%nat ->
  gp_kind g = AnalyticScale it -> (it <= 1)%nat -> (0 < b)%nat -> (0 < w)%nat -> uniform_noise (gp_noise g) ->
  shape (gp_Kout g) = [] -> at_ (gp_Kout g) [] = 1 ->
  lk_ok K (feature_count train) cur [] -> dataset test M -> dataset train N -> ndim test = ndim train ->
  feature_count test = feature_count train -> index_matrix nn b w N q -> distinct_lists b w q ->
  well_posed (gp_noise g) train b w q -> sound_noise (gp_noise g) train N M n ->
  data_moments S pi f y (cov K (feature_count train) cur) (gp_noise g) sc test train M N ->
  (forall o, (o < S)%nat -> shape (targets o) = [N] /\ forall a, (a < N)%nat -> at_ (targets o) [a] = y a o) ->
  (forall o, (o < S)%nat -> exists x i, (x < b)%nat /\ (i < w)%nat /\ y (q x i) o <> 0) ->
  exists m mean var, (forall o, (o < S)%nat ->
      optimize_scale_from_indices ls (lib_model gamma kv g K cur) draws nn train (targets o) = Ok (m o) /\
      regress_any ls knn hnsw (Univariate (m o)) test train wr (targets o) = Ok (mean o, var o)) /\
    forall x, (x < M)%nat ->
      expect S pi (fun o => at_ (var o) [x]) = expect S pi (fun o => (f x o - at_ (mean o) [x]) ^ 2).
Proof.
  intros Hm He Hi Hn GK Hit Hb Hw UN SK K1 OK DT D ND FC IM DL WP SN DM HT HO.
  destruct (unbiased_from_indices S pi f y g it draws K cur nn test train targets N M b w q sc) as (h & EH & HH); auto.
  set (m := fun o => match optimize_scale_from_indices ls (lib_model gamma kv g K cur) draws nn train (targets o) with
            | Ok m => m | Err _ => lib_model gamma kv g K cur end).
  set (pr := fun o => match regress_any ls knn hnsw (Univariate (m o)) test train wr (targets o) with
            | Ok p => p | Err _ => (targets o, targets o) end).
  set (k := cov K (feature_count train) cur). set (qq := nbr knn hnsw wr test).
  assert (WPq : (forall x, (x < M)%nat -> nearest_rows test train N x n (qq x)) -> well_posed (gp_noise g) train M n qq).
  { intros H. apply (sound_well_posed _ test train N); auto. }
  assert (NFM : noise_fits (gp_noise g) M n) by (destruct UN as [-> | [v ->]]; exact Logic.I).
  assert (PO : forall o, (o < S)%nat -> exists g' mean var,
     optimize_scale_from_indices ls (lib_model gamma kv g K cur) draws nn train (targets o) = Ok (lib_model gamma kv g' K cur) /\
     regress_any ls knn hnsw (Univariate (lib_model gamma kv g' K cur)) test train wr (targets o) = Ok (mean, var) /\
     gp_noise g' = gp_noise g /\ gp_var_scale g' = h o /\
     (forall x, (x < M)%nat -> nearest_rows test train N x n (qq x)) /\
     (forall x, (x < M)%nat -> nonsingular n (nbr_matrix k (gp_noise g) train qq x)) /\
     forall x, (x < M)%nat ->
       kriging n (nbr_matrix k (gp_noise g) train qq x) (fun j => kcov k test train x (qq x j)) (fun j => at_ (targets o) [qq x j]) (at_ mean [x]) /\
       exists wv, solves n (nbr_matrix k (gp_noise g) train qq x) wv (fun j => kcov k test train x (qq x j)) /\
         at_ var [x] = h o * (1 - dot n wv (fun j => kcov k test train x (qq x j)))).
  { intros o Ho. destruct (HH o Ho) as (H0 & HI & HZ & HP).
    assert (P : 0 < h o) by (apply HI, HO; auto).
    destruct (HP P) as (g' & E & _ & G2 & G3 & _ & G5). destruct (HT o Ho) as [HS _].
    destruct (regress_any_nbr gamma kv ls EX knn hnsw dist Hsk en method kw wr g' K cur [] test train (targets o) N M n [])
      as (mean & var & E2 & _ & _ & NS & V); auto; try (rewrite ?G2, ?G3, ?G5; auto; lra).
    { apply no_coincidence_nil. }
    exists g', mean, var. rewrite G2, G3 in *. split; [exact E|]. split; [exact E2|]. split; [reflexivity|]. split; [reflexivity|].
    split; [intros x Hx; apply V; auto|]. split; [exact NS|]. intros x Hx. destruct (V x Hx) as (_ & A & B & _).
    split; [apply (A []); constructor|exact B]. }
  exists m, (fun o => fst (pr o)), (fun o => snd (pr o)). split.
  { intros o Ho. destruct (PO o Ho) as (g' & mean & var & E & E2 & _).
    unfold pr, m. rewrite E, E2. split; reflexivity. }
  intros x Hx. destruct (Nat.eq_dec S 0) as [->|NZ]; [reflexivity|].
  destruct (PO O ltac:(lia)) as (g0 & mean0 & var0 & _ & _ & _ & _ & NR & NS & V0).
  destruct (V0 x Hx) as (_ & u & SO & _).
  destruct (error_optimal gamma kv K cur [] (gp_noise g) test train M x n qq u OK (WPq NR) Hx SO) as [EE _]. fold k in EE.
  rewrite (expect_ext S pi _ (fun o => error_variance k (gp_noise g) test train x n (qq x) u * h o)).
  2:{ intros o Ho. destruct (PO o Ho) as (g' & mean & var & E & E2 & _ & _ & _ & _ & V). unfold pr, m. rewrite E, E2. cbn [snd].
      destruct (V x Hx) as (_ & u' & SO' & ->). rewrite EE. rewrite Rmult_comm. f_equal. f_equal. unfold dot. apply rsum_ext. intros j Hj.
      rewrite (solves_unique n _ u' u _ (NS x Hx) SO' SO j Hj). reflexivity. }
  rewrite expect_scal, EH.
  rewrite (expect_ext S pi (fun o => (f x o - at_ (fst (pr o)) [x]) ^ 2) (fun o => (f x o - rsum n (fun j => u j * y (qq x j) o)) ^ 2)).
  2:{ intros o Ho. destruct (PO o Ho) as (g' & mean & var & E & E2 & _ & _ & _ & _ & V). unfold pr, m. rewrite E, E2. cbn [fst].
      destruct (V x Hx) as ((u' & SO' & ->) & _). f_equal. f_equal. unfold dot. apply rsum_ext. intros j Hj.
      rewrite (solves_unique n _ u' u _ (NS x Hx) SO' SO j Hj). f_equal. apply HT; auto. apply NR; auto. }
  change (error_variance k (gp_noise g) test train x n (qq x) u * sc = mean_squared_error S pi (f x) (fun j => y (qq x j)) n u).
  rewrite (mse_moments S pi (f x) (fun j => y (qq x j)) k (gp_noise g) sc test train x n (qq x) u).
  { ring. }
  destruct DM as [DP D1 D2 D3]. destruct (NR x Hx) as (RB & RI & _). constructor.
  - exact DP.
  - apply D1; auto.
  - intros j Hj. apply D2; auto.
  - intros i j Hi' Hj. rewrite D3 by auto. f_equal. unfold obs_cov. f_equal.
    destruct (Nat.eqb_spec i j) as [->|NE].
    + rewrite Nat.eqb_refl. apply uniform_noise_const; auto.
    + destruct (Nat.eqb_spec (qq x i) (qq x j)) as [EQ|_]; [exfalso; apply NE, RI; auto|reflexivity].
Qed.
End Workflow.

Section Exist.
Variables (gamma : R -> R) (kv : R -> R -> R).
Lemma data_moments_exist K cur m sc test train M N : lk_ok K (feature_count train) cur [] -> 0 <= sc -> 0 <= noise_at m None 0 0 ->
  exists outcomes pi f y, data_moments outcomes pi f y (lk_cov gamma kv K (feature_count train) cur []) m sc test train M N.
Proof.
  intros OK SC NN. set (k := lk_cov gamma kv K (feature_count train) cur []).
  set (pt := fun i => if (i <? M)%nat then feature test i else feature train (i - M)).
  set (d := fun i => if (i <? M)%nat then 0 else noise_at m None 0 0).
  set (A := fun i j => sc * plus_diag (fun i j => k (fun f => pt i f - pt j f)) d i j).
  set (n := S (M + N)).
  assert (SYK : forall i j, k (fun f => pt i f - pt j f) = k (fun f => pt j f - pt i f)).
  { intros i j. pose proof (lk_cov_sym gamma kv K (feature_count train) cur [] (mkNd [2; feature_count train]%nat
      (fun idx => match idx with [O; f] => pt i f | [_; f] => pt j f | _ => 0 end)) 0 1) as H.
    unfold kcov, feature in H. exact H. }
  destruct (gram_of_psd n A) as [L HL].
  { intros i j Hi Hj. unfold A, plus_diag. rewrite SYK, (Nat.eqb_sym j i). destruct (Nat.eqb_spec i j) as [->|]; reflexivity. }
  { intros v. assert (E : quad n A v = sc * quad n (plus_diag (fun i j => k (fun f => pt i f - pt j f)) d) v).
    { unfold quad. rewrite <- rsum_scal. apply rsum_ext. intros i Hi. rewrite <- rsum_scal. apply rsum_ext. intros; unfold A; ring. }
    rewrite E. apply Rmult_le_pos; [exact SC|].
    rewrite (quad_ext n _ (fun i j => k (fun f => pt i f - pt j f) + delta i j * d i) v v); auto.
    2:{ intros i j _ _. unfold plus_diag, delta. destruct (Nat.eqb i j); ring. }
    rewrite quad_plus, quad_diag. pose proof (lk_cov_psd gamma kv K (feature_count train) cur [] pt n OK v) as P. fold k in P.
    assert (0 <= rsum n (fun i => d i * (v i * v i))); [|lra]. apply rsum_nonneg. intros i Hi.
    assert (0 <= d i). { unfold d. destruct (i <? M)%nat; lra. } nra. }
  assert (NP : 0 < INR n) by (apply lt_0_INR; unfold n; lia).
  set (h := sqrt (INR n)). assert (HH : h * h = INR n) by (apply sqrt_sqrt; lra).
  assert (EE : forall i j, (i < n)%nat -> (j < n)%nat -> expect n (fun _ => / INR n) (fun s => h * L i s * (h * L j s)) = A i j).
  { intros i j Hi Hj. rewrite HL by auto. unfold expect. apply rsum_ext. intros s Hs.
    replace (/ INR n * (h * L i s * (h * L j s))) with (/ INR n * (h * h) * (L i s * L j s)) by ring. rewrite HH. field. lra. }
  assert (PT : forall x, (x < M)%nat -> pt x = feature test x) by (intros x Hx; unfold pt; destruct (Nat.ltb_spec x M); [auto|lia]).
  assert (PR : forall a, pt (M + a)%nat = feature train a).
  { intros a. unfold pt. destruct (Nat.ltb_spec (M + a) M); [lia|]. f_equal. lia. }
  exists n, (fun _ => / INR n), (fun x s => h * L x s), (fun a s => h * L (M + a)%nat s). constructor.
  - split; [rewrite rsum_const; field; lra|]. intros s _. apply Rlt_le, Rinv_0_lt_compat. auto.
  - intros x Hx. rewrite EE by (unfold n; lia). unfold A, plus_diag, d. rewrite Nat.eqb_refl, !PT by auto.
    destruct (Nat.ltb_spec x M); [|lia]. unfold kcov. ring.
  - intros x a Hx Ha. rewrite EE by (unfold n; lia). unfold A, plus_diag. rewrite PT, PR by auto.
    destruct (Nat.eqb_spec x (M + a)); [lia|]. unfold kcov. ring.
  - intros a c Ha Hc. rewrite EE by (unfold n; lia). unfold A, plus_diag, d. rewrite !PR. f_equal. f_equal.
    destruct (Nat.eqb_spec (M + a) (M + c)) as [E|NE], (Nat.eqb_spec a c) as [E'|NE']; try lia; auto.
    destruct (Nat.ltb_spec (M + a) M); [lia|reflexivity].
Qed.
End Exist.
