(** Lemmas for C114. *)
From Coq Require Import Lia Lra.
From Verif Require Import Base BaseFacts NdModel NdFacts RSum HyperModel NamedModel NamedSpec LinAlgModel LinAlgSpec LinAlgFacts Gauss
  GPModel NoiseModel MuyGPSModel GPSpec GPTheorems TensorModel TensorSpec KernelModel KernelSpec KernelLemmas
  FlowModel FlowSpec FlowProofs PointwiseSpec LibSpec LibProofs MultiModel DriverModel NeighborsModel NeighborsProofs WorkModel WorkSpec WorkProofs WorkLemmas SimplerSpec.
Local Open Scope R_scope.

Section S.
Variables (gamma : R -> R) (kv : R -> R -> R).
Variable ls : lsolver.
Hypothesis EX : exact_solver ls.
Variable knn : dict nnval -> list point -> point -> nat -> list (nat * R).
Variable hnsw : nnval -> list point -> point -> nat -> list (nat * R).
Variable dist : dict nnval -> point -> point -> R.
Hypothesis Hsk : sklearn_ok knn dist.

Local Notation run g K cur kkw := (regress_any ls knn hnsw (Univariate (mkMm g (lk_call gamma kv K cur kkw)))).

Lemma same_covariance en method kw w test train targets N M n ex g K cur kkw g' K' cur' kkw' :
  regression en method kw w test train targets N M n ex -> documented g K cur kkw train N M n ->
  lk_ok K' (feature_count train) cur' kkw' -> noise_fits (gp_noise g') M n -> same_but_noise g g' ->
  (forall v, lk_cov gamma kv K' (feature_count train) cur' kkw' v = lk_cov gamma kv K (feature_count train) cur kkw v) ->
  (forall x i, (x < M)%nat -> (i < n)%nat -> noise_at (gp_noise g') None x i = noise_at (gp_noise g) None x i) ->
  same_prediction (run g K cur kkw test train w targets) (run g' K' cur' kkw' test train w targets).
Proof.
  intros (Hm & He & Hi & Hn & D1 & D2 & ND & FC & HT & NC) (OK & SK & K1 & SC & NF & SN) OK' NF' (SC' & EK) HC HN.
  destruct (regress_any_nbr gamma kv ls EX knn hnsw dist Hsk en method kw w g K cur kkw test train targets N M n ex) as (mean & var & E & Sm & Sv & NS & V); auto.
  assert (SN' : sound_noise (gp_noise g') train N M n).
  { destruct SN as [P|[P D]]; [left; intros; rewrite HN by auto; auto|right; split; [intros; rewrite HN by auto; auto|auto]]. }
  destruct (regress_any_nbr gamma kv ls EX knn hnsw dist Hsk en method kw w g' K' cur' kkw' test train targets N M n ex) as (mean' & var' & E' & Sm' & Sv' & _ & V'); auto;
    [congruence|congruence|congruence|].
  exists mean, var, mean', var'. split; [exact E|]. split; [exact E'|].
  set (k := lk_cov gamma kv K (feature_count train) cur kkw) in *.
  set (k' := lk_cov gamma kv K' (feature_count train) cur' kkw') in *.
  set (q := nbr knn hnsw w test) in *.
  assert (KE : forall x j, kcov k test train x (q x j) = kcov k' test train x (q x j)) by (intros; unfold kcov; symmetry; apply HC).
  assert (AE : forall x, (x < M)%nat -> forall i j, (i < n)%nat -> (j < n)%nat ->
     nbr_matrix k (gp_noise g) train q x i j = nbr_matrix k' (gp_noise g') train q x i j).
  { intros x Hx i j Hi' Hj'. unfold nbr_matrix, plus_diag. rewrite HN by auto. f_equal. unfold kcov. symmetry. apply HC. }
  split; (split; [congruence|]).
  - rewrite Sm. intros idx I. apply inb_inv_cons in I as (x & e & -> & Hx & He').
    destruct (V x Hx) as (_ & Mx & _). destruct (V' x Hx) as (_ & Mx' & _).
    refine (kriging_det n _ _ _ _ _ _ _ _ (NS x Hx) (AE x Hx) (fun j _ => KE x j) (fun j _ => eq_refl) (Mx e He') (Mx' e He')).
  - rewrite Sv. intros idx I. apply inb_inv1 in I as (x & -> & Hx).
    destruct (V x Hx) as (_ & _ & (wv & W & Vx) & _). destruct (V' x Hx) as (_ & _ & (wv' & W' & Vx') & _).
    rewrite Vx, Vx', SC'. f_equal. f_equal.
    refine (kriging_det n _ _ _ _ _ _ _ _ (NS x Hx) (AE x Hx) (fun j _ => KE x j) (fun j _ => KE x j) _ _); [exists wv|exists wv']; split; auto.
Qed.

Lemma scaled_ext F l l' x y : (forall f, (f < F)%nat -> l' f = l f) -> scaled_sqdist F l' x y = scaled_sqdist F l x y.
Proof. intros H. unfold scaled_sqdist. apply rsum_ext. intros f Hf. rewrite H by auto. reflexivity. Qed.

Lemma redeform_cov K d F cur kkw cur' kkw' v : lk_ok K F cur kkw ->
  (forall f, (f < F)%nat -> scale_of d cur' kkw' f = scale_of (lk_def K) cur kkw f) ->
  lk_cov gamma kv (redeform K d) F cur' kkw' v = lk_cov gamma kv K F cur kkw v.
Proof.
  intros OK H. destruct K as [d0|d0 sm p]; cbn [redeform lk_cov lk_def] in *.
  - unfold rbf_cov. rewrite (scaled_ext F _ _ _ _ H). reflexivity.
  - unfold matern_cov. rewrite (scaled_ext F _ _ _ _ H). destruct OK as (_ & _ & _ & _ & _ & NG).
    destruct (formula_for p); try reflexivity. congruence.
Qed.

Lemma infinite_cov d sm p d' F cur kkw cur' kkw' v : formula_for p = Infinite ->
  (forall f, (f < F)%nat -> scale_of d' cur' kkw' f = scale_of d cur kkw f) ->
  lk_cov gamma kv (LRbf d') F cur' kkw' v = lk_cov gamma kv (LMatern d sm p) F cur kkw v.
Proof.
  intros EP H. cbn [lk_cov]. unfold rbf_cov, matern_cov. rewrite EP. cbn [matern_value]. unfold gaussian.
  rewrite (scaled_ext F _ _ _ _ H), pow2_sqrt by apply scaled_sqdist_nonneg. reflexivity.
Qed.

(** ** Multivariate *)
Lemma multi_columns en method kw w (ms : list (gp * libkernel * (nat -> R))) test train targets F N M n r :
  regression en method kw w test train targets N M n [r] -> n <> 1%nat -> shape test = [M; F] -> shape train = [N; F] ->
  ms <> [] -> (List.length ms <= r)%nat -> (forall g K cur, In (g, K, cur) ms -> documented g K cur [] train N M n) ->
  exists mean var,
    regress_any ls knn hnsw (Multivariate (map (fun e => lib_model gamma kv (fst (fst e)) (snd (fst e)) (snd e)) ms)) test train w targets = Ok (mean, var) /\
    shape mean = [M; r] /\ shape var = [M; List.length ms] /\
    forall i g K cur t, nth_error ms i = Some (g, K, cur) -> is_column targets N i t ->
      exists mi vi, regress_any ls knn hnsw (Univariate (lib_model gamma kv g K cur)) test train w t = Ok (mi, vi) /\
        forall x, (x < M)%nat -> at_ mean [x; i] = at_ mi [x] /\ at_ var [x; i] = gp_scale g * at_ vi [x].
Proof.
  intros (Hm & He & Hi & Hn & D1 & D2 & ND & FC & HT & NC) N1 St Sx NE HL Hms.
  assert (FF : feature_count train = F) by (unfold feature_count; rewrite Sx; reflexivity).
  destruct (regress_any_multi_nbr gamma kv ls EX knn hnsw dist Hsk en method kw w ms test train targets F N M n r) as (mean & var & E & Sm & Sv & NR & V); auto.
  { intros g K cur Hin. destruct (Hms g K cur Hin) as (OK & SK & K1 & SC & NF & SN). rewrite FF in OK. auto. }
  exists mean, var. split; [exact E|]. split; [exact Sm|]. split; [exact Sv|].
  intros i g K cur t En [ST AT].
  destruct (Hms g K cur (nth_error_In _ _ En)) as (OK & SK & K1 & SC & NF & SN).
  destruct (regress_any_nbr gamma kv ls EX knn hnsw dist Hsk en method kw w g K cur [] test train t N M n []) as (mi & vi & Ei & _ & _ & NS & Vi); auto.
  { apply no_coincidence_nil. }
  exists mi, vi. split; [exact Ei|]. intros x Hx. destruct (V i g K cur x En Hx) as [A (wv & W & B)]. destruct (Vi x Hx) as ((QB & _) & Ax & (wv' & W' & Bx) & _).
  rewrite FF in *. split.
  - refine (kriging_det n _ _ _ _ _ _ _ _ (NS x Hx) (fun _ _ _ _ => eq_refl) (fun _ _ => eq_refl) _ A (Ax [] inb_nil)).
    intros j Hj. cbn beta. symmetry. apply AT. apply QB; auto.
  - rewrite B, Bx. do 3 f_equal.
    refine (kriging_det n _ _ _ _ _ _ _ _ (NS x Hx) (fun _ _ _ _ => eq_refl) (fun _ _ => eq_refl) (fun _ _ => eq_refl) (ex_intro _ wv (conj W eq_refl)) (ex_intro _ wv' (conj W' eq_refl))).
Qed.

Lemma multi_shared en method kw w g K cur test train targets F N M n r :
  regression en method kw w test train targets N M n [r] -> n <> 1%nat -> shape test = [M; F] -> shape train = [N; F] -> (0 < r)%nat ->
  documented g K cur [] train N M n ->
  exists mean var mean' var',
    regress_any ls knn hnsw (Multivariate (repeat (lib_model gamma kv g K cur) r)) test train w targets = Ok (mean, var) /\
    regress_any ls knn hnsw (Univariate (lib_model gamma kv g K cur)) test train w targets = Ok (mean', var') /\
    nd_eq mean mean' /\ shape var = [M; r] /\ shape var' = [M] /\
    forall x i, (x < M)%nat -> (i < r)%nat -> at_ var [x; i] = gp_scale g * at_ var' [x].
Proof.
  intros (Hm & He & Hi & Hn & D1 & D2 & ND & FC & HT & NC) N1 St Sx HR DG.
  assert (FF : feature_count train = F) by (unfold feature_count; rewrite Sx; reflexivity).
  set (ms := repeat (g, K, cur) r).
  assert (EM : repeat (lib_model gamma kv g K cur) r = map (fun e => lib_model gamma kv (fst (fst e)) (snd (fst e)) (snd e)) ms).
  { unfold ms. clear. induction r as [|r' IH]; [reflexivity|]. cbn [repeat map fst snd]. rewrite <- IH. reflexivity. }
  assert (NTH : forall i, (i < r)%nat -> nth_error ms i = Some (g, K, cur)) by (intros; apply nth_error_repeat; auto).
  destruct DG as (OK & SK & K1 & SC & NF & SN).
  destruct (regress_any_multi_nbr gamma kv ls EX knn hnsw dist Hsk en method kw w ms test train targets F N M n r) as (mean & var & E & Sm & Sv & NR & V); auto.
  { intros C. specialize (NTH O HR). rewrite C in NTH. discriminate. }
  { unfold ms. rewrite repeat_length. lia. }
  { intros g0 K0 cur0 Hin. apply repeat_spec in Hin. assert (g0 = g) as -> by congruence. assert (K0 = K) as -> by congruence. assert (cur0 = cur) as -> by congruence.
    rewrite FF in OK. auto. }
  destruct (regress_any_nbr gamma kv ls EX knn hnsw dist Hsk en method kw w g K cur [] test train targets N M n [r]) as (mi & vi & Ei & Smi & Svi & NS & Vi); auto.
  rewrite FF in *. exists mean, var, mi, vi. split; [rewrite EM; exact E|]. split; [exact Ei|]. split.
  - split; [congruence|]. rewrite Sm. intros idx I. apply inb_inv2 in I as (x & i & -> & Hx & Hi').
    destruct (V i g K cur x (NTH i Hi') Hx) as [A _]. destruct (Vi x Hx) as (_ & Ax & _).
    refine (kriging_det n _ _ _ _ _ _ _ _ (NS x Hx) (fun _ _ _ _ => eq_refl) (fun _ _ => eq_refl) (fun _ _ => eq_refl) A (Ax [i] _)).
    apply inb1. exact Hi'.
  - split; [rewrite Sv; unfold ms; rewrite repeat_length; reflexivity|]. split; [exact Svi|]. intros x i Hx Hi'.
    destruct (V i g K cur x (NTH i Hi') Hx) as [_ (wv & W & B)]. destruct (Vi x Hx) as (_ & _ & (wv' & W' & Bx) & _).
    rewrite B, Bx. do 3 f_equal.
    refine (kriging_det n _ _ _ _ _ _ _ _ (NS x Hx) (fun _ _ _ _ => eq_refl) (fun _ _ => eq_refl) (fun _ _ => eq_refl) (ex_intro _ wv (conj W eq_refl)) (ex_intro _ wv' (conj W' eq_refl))).
Qed.
End S.
