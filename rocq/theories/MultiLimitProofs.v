(** Limits of multivariate predictions (C125). *)
From Coq Require Import Lia Lra Classical.
From Verif Require Import Base BaseFacts NdModel NdFacts RSum HyperModel NamedModel NamedSpec LinAlgModel LinAlgSpec LinAlgFacts Gauss
  GPModel NoiseModel GPProofs MuyGPSModel GPSpec MuyGPSProofs GPTheorems WellPosedProofs TensorModel TensorSpec TensorProofs KernelModel KernelSpec
  NeighborsModel NeighborsSpec NeighborsProofs FlowModel FlowSpec FlowProofs FlowLemmas PointwiseSpec LibSpec LibProofs
  MultiModel MultiSpec MultiProofs DriverModel BackendModel BackendProofs DeepModel DeepProofs WorkModel WorkSpec WorkProofs WorkLemmas
  BestSpec BestGram BestProofs FarSpec DupProofs SimplerSpec NativeSpec NativeProofs FitSpec FitProofs CoincideSpec CoincideProofs LocalProofs FarProofs RoundProofs LimitProofs MultiwiseProofs.
Local Open Scope R_scope.

Section M.
Variables (gamma : R -> R) (kv : R -> R -> R).
Variable ls : lsolver.
Hypothesis EX : exact_solver ls.
Variable knn : dict nnval -> list point -> point -> nat -> list (nat * R).
Variable hnsw : nnval -> list point -> point -> nat -> list (nat * R).
Variable dist : dict nnval -> point -> point -> R.
Hypothesis Hsk : sklearn_ok knn dist.
Local Notation multi ms := (Multivariate (map (fun e => lib_model gamma kv (fst (fst e)) (snd (fst e)) (snd e)) ms)).

Lemma multi_limits en method kw w (ms : list (gp * libkernel * (nat -> R))) test train targets F N M n r nu Y :
  regression en method kw w test train targets N M n [r] -> n <> 1%nat -> shape test = [M; F] -> shape train = [N; F] ->
  ms <> [] -> (List.length ms <= r)%nat -> (forall g K cur, In (g, K, cur) ms -> documented g K cur [] train N M n /\ 0 <= gp_scale g) ->
  0 < nu -> (forall g K cur, In (g, K, cur) ms -> noise_at_least (gp_noise g) nu M n) ->
  (forall a i, (a < N)%nat -> (i < r)%nat -> Rabs (at_ targets [a; i]) <= Y) ->
  exists mean var,
    regress_any ls knn hnsw (multi ms) test train w targets = Ok (mean, var) /\
    forall x i g K cur, (x < M)%nat -> nth_error ms i = Some (g, K, cur) ->
      let prior := gp_scale g * gp_var_scale g in
      prior * (1 - INR n / nu) <= at_ var [x; i] <= prior /\ Rabs (at_ mean [x; i]) <= INR n * Y / nu /\
      forall L D, (forall f, (f < F)%nat -> scale_of (lk_def K) cur [] f <= L) -> 0 < D -> far_from test train N x D ->
        prior * (1 - 36 * L ^ 2 * INR n / (D ^ 2 * nu)) <= at_ var [x; i] /\ Rabs (at_ mean [x; i]) <= 6 * L * INR n * Y / (D * nu).
Proof.
  intros RG N1 St Sx NE HL Hms NU NL YB.
  assert (FF : feature_count train = F) by (unfold feature_count; rewrite Sx; reflexivity).
  destruct (multi_core gamma kv ls EX knn hnsw dist Hsk en method kw w ms test train targets F N M n r RG N1 St Sx NE HL ltac:(intros; apply Hms; auto))
    as (mean & var & E & _ & _ & NR & V). cbv zeta in *. set (q := nbr knn hnsw w test) in *.
  exists mean, var. split; [exact E|]. intros x i g K cur Hx Em. pose proof (nth_error_In _ _ Em) as HI.
  assert (Hi : (i < r)%nat) by (assert (i < List.length ms)%nat by (apply nth_error_Some; congruence); lia).
  destruct (V i g K cur x Em Hx) as (OK & SC & WP & _ & _ & u & U & EM & EV). destruct (Hms g K cur HI) as [_ G0].
  destruct (NR x Hx) as [NR1 _]. rewrite <- FF in *. set (k := lk_cov gamma kv K (feature_count train) cur []) in *.
  pose proof (noise_coercive gamma kv K cur (gp_noise g) nu train M n q x OK (NL g K cur HI) Hx) as CO. fold k in CO.
  destruct (error_optimal gamma kv K cur [] (gp_noise g) test train M x n q u OK WP Hx U) as [EE _]. fold k in EE. rewrite EE in EV.
  assert (KA : forall j, (j < n)%nat -> Rabs (kcov k test train x (q x j)) <= 1).
  { intros j Hj. pose proof (kcov_01 gamma kv K cur test train x (q x j) _ OK) as B. fold k in B. rewrite Rabs_pos_eq; lra. }
  assert (W : rsum n (fun j => Rabs (u j)) <= INR n * 1 / nu) by (apply (l1_bound n _ _ u nu 1 NU Rle_0_1 CO U KA)).
  assert (TY : forall j, (j < n)%nat -> Rabs (at_ targets [q x j; i]) <= Y) by (intros j Hj; apply YB; [apply NR1; exact Hj|exact Hi]).
  assert (P0 : 0 <= gp_scale g * gp_var_scale g) by (apply Rmult_le_pos; auto).
  assert (PV : forall z, gp_scale g * (gp_var_scale g * z) = gp_scale g * gp_var_scale g * z) by (intros; ring).
  rewrite EV, PV. fold (dot n u (fun j => at_ targets [q x j; i])) in EM. rewrite EM.
  assert (DP : 0 <= dot n u (fun j => kcov k test train x (q x j))).
  { destruct (coercive_weights n _ _ u nu NU CO U) as [W1 _]. assert (0 <= nu * rsum n (fun j => u j ^ 2)) by (apply Rmult_le_pos; [lra|apply rsum_nonneg; intros; apply pow2_ge_0]). lra. }
  split; [split|split].
  - apply Rmult_le_compat_l; [exact P0|]. pose proof (dot_l1 n u _ 1 KA) as B. pose proof (Rle_abs (dot n u (fun j => kcov k test train x (q x j)))) as RA. unfold Rdiv in *. lra.
  - rewrite <- (Rmult_1_r (gp_scale g * gp_var_scale g)) at 2. apply Rmult_le_compat_l; [exact P0|lra].
  - eapply Rle_trans; [apply (dot_l1 n u (fun j => at_ targets [q x j; i]) Y TY)|].
    assert (Y0 : 0 <= Y) by (destruct RG as (_ & _ & _ & Hn & _); eapply Rle_trans; [apply Rabs_pos|apply (TY 0%nat); lia]).
    apply (Rmult_le_compat_r Y) in W; [|exact Y0]. eapply Rle_trans; [exact W|]. right. unfold Rdiv. ring.
  - intros L D B D0 FAR.
    assert (L0 : 0 < L) by (destruct OK as (_ & HF & POS & _); pose proof (POS O HF); pose proof (B O HF); lra).
    destruct (far_core gamma kv K cur (gp_noise g) test train x n q N L D nu Y (fun j => at_ targets [q x j; i]) u OK NU D0 L0 B NR1 FAR CO TY U) as [[_ Q1] Q2].
    fold k in Q1. split; [apply Rmult_le_compat_l; [exact P0|lra]|exact Q2].
Qed.
End M.
