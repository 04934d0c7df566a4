(** Comparing the variances of multivariate predictions (C125). *)
From Coq Require Import Lia Lra Classical.
From Verif Require Import Base BaseFacts NdModel NdFacts RSum HyperModel NamedModel NamedSpec LinAlgModel LinAlgSpec LinAlgFacts Gauss
  GPModel NoiseModel GPProofs MuyGPSModel GPSpec MuyGPSProofs GPTheorems WellPosedProofs TensorModel TensorSpec TensorProofs KernelModel KernelSpec
  NeighborsModel NeighborsSpec NeighborsProofs FlowModel FlowSpec FlowProofs FlowLemmas PointwiseSpec LibSpec LibProofs
  MultiModel MultiSpec MultiProofs DriverModel BackendModel BackendProofs DeepModel DeepProofs WorkModel WorkSpec WorkProofs WorkLemmas
  BestSpec BestGram BestProofs FarSpec DupProofs SimplerSpec NativeSpec NativeProofs FitSpec FitProofs CoincideSpec CoincideProofs LocalProofs MultiwiseProofs.
Local Open Scope R_scope.

Section M.
Variables (gamma : R -> R) (kv : R -> R -> R).
Variable ls : lsolver.
Hypothesis EX : exact_solver ls.
Variable knn : dict nnval -> list point -> point -> nat -> list (nat * R).
Variable hnsw : nnval -> list point -> point -> nat -> list (nat * R).
Variable dist : dict nnval -> point -> point -> R.
Hypothesis Hsk : sklearn_ok knn dist.
Local Notation multi ms := (Multivariate (map (fun e => lib_model gamma kv (fst (fst e)) (snd (fst e)) (snd e)) ms)).

Lemma multi_more_noise en method kw w (ms ms' : list (gp * libkernel * (nat -> R))) test train targets F N M n r :
  regression en method kw w test train targets N M n [r] -> n <> 1%nat -> shape test = [M; F] -> shape train = [N; F] ->
  ms <> [] -> (List.length ms <= r)%nat -> (forall g K cur, In (g, K, cur) ms -> documented g K cur [] train N M n /\ 0 <= gp_scale g) ->
  List.length ms' = List.length ms ->
  (forall i g K cur, nth_error ms i = Some (g, K, cur) -> exists g', nth_error ms' i = Some (g', K, cur) /\ same_but_noise g g' /\ gp_scale g' = gp_scale g /\
     noise_fits (gp_noise g') M n /\
     forall x j, (x < M)%nat -> (j < n)%nat -> noise_at (gp_noise g) None x j <= noise_at (gp_noise g') None x j) ->
  exists mean var mean' var',
    regress_any ls knn hnsw (multi ms) test train w targets = Ok (mean, var) /\
    regress_any ls knn hnsw (multi ms') test train w targets = Ok (mean', var') /\
    forall x i, (x < M)%nat -> (i < List.length ms)%nat -> at_ var [x; i] <= at_ var' [x; i].
Proof.
  intros RG N1 St Sx NE HL Hms LEN REL.
  assert (FF : feature_count train = F) by (unfold feature_count; rewrite Sx; reflexivity).
  assert (NE' : ms' <> []) by (intros ->; destruct ms; [contradiction|discriminate]).
  assert (DOC' : forall g K cur, In (g, K, cur) ms' -> documented g K cur [] train N M n).
  { intros g' K cur Hin. destruct (In_nth_error _ _ Hin) as [i Ei].
    destruct (nth_error ms i) as [[[g K0] cur0]|] eqn:Em.
    2:{ apply nth_error_None in Em. assert (i < List.length ms')%nat by (apply nth_error_Some; congruence). lia. }
    destruct (REL i g K0 cur0 Em) as (g2 & E2 & (SS & KK) & _ & NF & LE). rewrite Ei in E2. injection E2 as <- <- <-.
    destruct (Hms g K cur (nth_error_In _ _ Em)) as [(OK & SK & K1 & SC & NF0 & SN) _].
    split; [exact OK|]. rewrite SS, KK. split; [exact SK|]. split; [exact K1|]. split; [exact SC|]. split; [exact NF|].
    destruct SN as [P|[P D]]; [left|right; split; [|exact D]]; intros x j Hx Hj; specialize (P x j Hx Hj); specialize (LE x j Hx Hj); lra. }
  destruct (multi_core gamma kv ls EX knn hnsw dist Hsk en method kw w ms test train targets F N M n r RG N1 St Sx NE HL ltac:(intros; apply Hms; auto))
    as (mean & var & E & _ & _ & _ & V).
  destruct (multi_core gamma kv ls EX knn hnsw dist Hsk en method kw w ms' test train targets F N M n r RG N1 St Sx NE' ltac:(lia) DOC')
    as (mean' & var' & E' & _ & _ & _ & V'). cbv zeta in *. set (q := nbr knn hnsw w test) in *.
  exists mean, var, mean', var'. split; [exact E|]. split; [exact E'|]. intros x i Hx Hi.
  destruct (nth_error ms i) as [[[g K] cur]|] eqn:Em; [|apply nth_error_None in Em; lia].
  destruct (REL i g K cur Em) as (g' & Em' & (SS & KK) & SG & NF & LE).
  destruct (V i g K cur x Em Hx) as (OK & SC & WP & N0 & NS & u & SO & _ & ->).
  destruct (V' i g' K cur x Em' Hx) as (_ & _ & WP' & _ & _ & u' & SO' & _ & ->).
  rewrite SG, SS. destruct (Hms g K cur (nth_error_In _ _ Em)) as [_ G0].
  apply Rmult_le_compat_l; [exact G0|]. apply Rmult_le_compat_l; [exact SC|].
  rewrite <- FF in OK. destruct (error_optimal gamma kv K cur [] (gp_noise g) test train M x n q u OK WP Hx) as [_ O]; [rewrite FF; exact SO|]. rewrite FF in O.
  eapply Rle_trans; [apply (O u')|].
  unfold error_variance. apply Rplus_le_compat_l. apply rsum_le. intros a Ha. apply rsum_le. intros j Hj. unfold obs_cov.
  destruct (Nat.eqb_spec a j) as [<-|]; [|lra]. pose proof (LE x a Hx Ha). pose proof (pow2_ge_0 (u' a)) as P. cbn [pow] in P. nra.
Qed.

Lemma multi_more_neighbors en method kw w en' method' kw' w' (ms : list (gp * libkernel * (nat -> R))) test train targets F N M n n' r :
  regression en method kw w test train targets N M n [r] -> regression en' method' kw' w' test train targets N M n' [r] -> (n <= n')%nat ->
  n <> 1%nat -> n' <> 1%nat -> shape test = [M; F] -> shape train = [N; F] -> ms <> [] -> (List.length ms <= r)%nat ->
  (forall g K cur, In (g, K, cur) ms -> documented g K cur [] train N M n' /\ uniform_noise (gp_noise g) /\ 0 <= gp_scale g) ->
  exists mean var mean' var',
    regress_any ls knn hnsw (multi ms) test train w targets = Ok (mean, var) /\
    regress_any ls knn hnsw (multi ms) test train w' targets = Ok (mean', var') /\
    forall x i, (x < M)%nat -> no_ties test train N x -> (i < List.length ms)%nat -> at_ var' [x; i] <= at_ var [x; i].
Proof.
  intros RG RG' LN N1 N1' St Sx NE HL Hms.
  assert (FF : feature_count train = F) by (unfold feature_count; rewrite Sx; reflexivity).
  assert (DOC : forall g K cur, In (g, K, cur) ms -> documented g K cur [] train N M n).
  { intros g K cur Hin. destruct (Hms g K cur Hin) as ((OK & SK & K1 & SC & _ & SN) & U & _).
    split; [exact OK|]. split; [exact SK|]. split; [exact K1|]. split; [exact SC|]. split; [apply uniform_fits; exact U|].
    destruct SN as [P|[P D]]; [left|right; split; [|exact D]]; intros x j Hx Hj; apply P; auto; lia. }
  destruct (multi_core gamma kv ls EX knn hnsw dist Hsk en method kw w ms test train targets F N M n r RG N1 St Sx NE HL DOC)
    as (mean & var & E & _ & _ & NR & V).
  destruct (multi_core gamma kv ls EX knn hnsw dist Hsk en' method' kw' w' ms test train targets F N M n' r RG' N1' St Sx NE HL ltac:(intros; apply Hms; auto))
    as (mean' & var' & E' & _ & _ & NR' & V'). cbv zeta in *.
  exists mean, var, mean', var'. split; [exact E|]. split; [exact E'|]. intros x i Hx NT Hi.
  destruct (nth_error ms i) as [[[g K] cur]|] eqn:Em; [|apply nth_error_None in Em; lia].
  destruct (Hms g K cur (nth_error_In _ _ Em)) as (_ & U & G0).
  destruct (V i g K cur x Em Hx) as (OK & SC & WP & _ & _ & u & SO & _ & ->).
  destruct (V' i g K cur x Em Hx) as (_ & _ & WP' & _ & _ & u' & SO' & _ & ->).
  apply Rmult_le_compat_l; [exact G0|]. rewrite <- FF in *.
  destruct (error_optimal gamma kv K cur [] (gp_noise g) test train M x n (nbr knn hnsw w test) u OK WP Hx SO) as [-> _].
  destruct (error_optimal gamma kv K cur [] (gp_noise g) test train M x n' (nbr knn hnsw w' test) u' OK WP' Hx SO') as [-> _].
  apply (variance_order gamma kv g K cur test train M n (nbr knn hnsw w test) n' (nbr knn hnsw w' test) x u u'); auto.
  apply (nearest_among test train N x); auto.
Qed.
End M.
