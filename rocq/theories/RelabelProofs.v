(** Renumbering the classes of a classification problem. *)
From Coq Require Import Lia Lra.
From Verif Require Import Base BaseFacts NdModel NdFacts RSum LinAlgModel LinAlgSpec LinAlgFacts
  GPModel NoiseModel MuyGPSModel MuyGPSProofs GPSpec GPTheorems TensorModel TensorSpec TensorProofs
  HyperModel HyperSpec NamedModel NamedSpec NamedProofs KernelModel KernelSpec FlowModel FlowSpec FlowProofs PointwiseSpec LibSpec LibProofs
  LossModel LossSpec LossProofs ChassisModel ChassisSpec ChassisProofs ObjectiveProofs MultiModel DriverModel ClassifyModel ClassifySpec ClassifyProofs ClassifyLemmas
  WorkModel WorkSpec WorkProofs WorkLemmas NeighborsModel NeighborsSpec NeighborsProofs BatchProofs BatchLemmas
  TrainModel TrainSpec TrainProofs TrainProofs2 TrainProofs3 UnitsProofs2 SimTrainSpec ClassTrainModel ClassTrainSpec ClassTrainProofs RelabelSpec.
Local Open Scope R_scope.

(** ** Predictions *)
Lemma perm_inverse n p : perm_on n p -> forall c, (c < n)%nat -> exists d, (d < n)%nat /\ p d = c.
Proof.
  intros PM c Hc. pose proof (perm_on_Permutation n p PM) as P.
  assert (I : In c (map p (seq 0 n))) by (apply (Permutation.Permutation_in c (Permutation.Permutation_sym P)); apply in_seq; lia).
  apply in_map_iff in I as (d & E & I). apply in_seq in I. exists d. split; [lia|exact E].
Qed.

Lemma agree_dec labels w q x : {agree_first labels w q x} + {~ agree_first labels w q x}.
Proof.
  unfold agree_first. induction w as [|w IH]; [left; intros; lia|].
  destruct (Req_EM_T (at_ labels [q x w; O]) (at_ labels [q x O; O])) as [E|E].
  - destruct IH as [H|H]; [left|right; intros H'; apply H; intros; apply H'; lia].
    intros j Hj. destruct (Nat.eq_dec j w); [subst; exact E|apply H; lia].
  - right. intros H. apply E. apply H. lia.
Qed.

Lemma classify_renumbered ls g F kern k test train labels labels' test_nn N M w q C p :
  exact_solver ls -> (gp_noise g = NullNoise \/ exists v, gp_noise g = HomoscedasticNoise v) ->
  pointwise_kernel F kern k -> dataset test M -> dataset train N -> ndim test = ndim train ->
  feature_count test = F -> feature_count train = F -> renumbered p labels labels' N (S C) -> (0 < N)%nat ->
  index_matrix test_nn M (S w) N q -> C <> w ->
  (forall x, (x < M)%nat -> nonsingular (S w) (nbr_matrix k (gp_noise g) train q x)) ->
  (forall x, (x < M)%nat -> (agree_first labels (S w) q x <-> agree_first labels' (S w) q x)) ->
  exists out out',
    classify_any (fun ix nn => posterior_mean_from_indices ls g kern ix nn test train labels) labels test_nn = Ok out /\
    classify_any (fun ix nn => posterior_mean_from_indices ls g kern ix nn test train labels') labels' test_nn = Ok out' /\
    scores_renumbered p out out' M (S C).
Proof.
  intros EX UN PK D1 D2 ND FC FC' (PM & SH & SH' & HL) HN IM CW NS AG.
  pose proof (gp_answers ls g F kern k test train labels test_nn N M (S w) q (S C) (fun x => ~ agree_first labels (S w) q x)
    EX UN PK D1 D2 ND FC FC' SH IM ltac:(lia) ltac:(auto)) as A.
  pose proof (gp_answers ls g F kern k test train labels' test_nn N M (S w) q (S C) (fun x => ~ agree_first labels' (S w) q x)
    EX UN PK D1 D2 ND FC FC' SH' IM ltac:(lia) ltac:(auto)) as A'.
  destruct (classify_value _ labels test_nn N C M w q _ SH IM HN A) as (out & E & S1 & V).
  destruct (classify_value _ labels' test_nn N C M w q _ SH' IM HN A') as (out' & E' & S2 & V').
  exists out, out'. split; [exact E|]. split; [exact E'|]. split; [exact S1|]. split; [exact S2|].
  intros x c Hx Hc. destruct PM as [PM1 PM2]. destruct (V x c Hx Hc) as [V1 V2]. destruct (V' x (p c) Hx (PM1 c Hc)) as [V1' V2'].
  assert (QL : forall j, (j < S w)%nat -> (q x j < N)%nat) by (intros j Hj; apply IM; auto).
  destruct (agree_dec labels (S w) q x) as [Y|Y].
  - rewrite V1 by auto. rewrite V1' by (apply AG; auto). apply HL; auto. apply QL; lia.
  - assert (Y' : ~ agree_first labels' (S w) q x) by (intros Z; apply Y; apply AG; auto).
    symmetry. refine (kriging_det (S w) _ _ _ _ _ _ _ _ (NS x Hx) _ _ _ (V2 Y) (V2' Y')); auto.
    intros j Hj. symmetry. apply HL; auto.
Qed.

(** ** When renumbering does not change which rows take the shortcut *)
Lemma one_hot_renumbered p labels labels' N C lo hi cl : renumbered p labels labels' N C -> one_hot labels N C lo hi cl ->
  one_hot labels' N C lo hi (fun i => p (cl i)).
Proof.
  intros (PM & _ & SH' & HL) (NE & _ & OH). split; [exact NE|]. split; [exact SH'|]. intros i Hi. destruct (OH i Hi) as [Hc Hv].
  pose proof PM as [PM1 PM2]. split; [auto|]. intros c Hc'. destruct (perm_inverse C p PM c Hc') as (d & Hd & <-).
  rewrite HL, Hv by auto. destruct (Nat.eqb_spec d (cl i)) as [->|E]; [rewrite Nat.eqb_refl; reflexivity|].
  destruct (Nat.eqb_spec (p d) (p (cl i))) as [E'|_]; [|reflexivity]. exfalso. apply E. auto.
Qed.

Lemma two_classes_same_shortcut p labels labels' N lo hi cl q x w : renumbered p labels labels' N 2 -> one_hot labels N 2 lo hi cl ->
  (forall j, (j < w)%nat -> (q x j < N)%nat) -> (0 < w)%nat ->
  (agree_first labels w q x <-> agree_first labels' w q x).
Proof.
  intros RN OH QL Hw. pose proof (one_hot_renumbered p labels labels' N 2 lo hi cl RN OH) as OH'.
  destruct (two_class_agree labels N lo hi cl q x w OH QL Hw) as [A _]. destruct (two_class_agree labels' N lo hi _ q x w OH' QL Hw) as [A' _].
  rewrite A, A'. destruct RN as ((_ & PM2) & _). destruct OH as (_ & _ & OH).
  split; intros H j Hj; [rewrite H; auto|]. apply PM2; [apply OH; auto|apply OH; auto|apply H; auto].
Qed.

Lemma first_kept_same_shortcut p labels labels' N C q x w : renumbered p labels labels' N (S C) -> p O = O ->
  (forall j, (j < w)%nat -> (q x j < N)%nat) -> (0 < w)%nat ->
  (agree_first labels w q x <-> agree_first labels' w q x).
Proof.
  intros (_ & _ & _ & HL) P0 QL Hw. unfold agree_first.
  assert (E : forall j, (j < w)%nat -> at_ labels' [q x j; O] = at_ labels [q x j; O]).
  { intros j Hj. rewrite <- P0 at 1. apply HL; [auto|lia]. }
  split; intros H j Hj; specialize (H j Hj); [rewrite !E by auto; exact H|rewrite !E in H by auto; exact H].
Qed.

(** ** The training objective *)
Section Value.
Variables (gamma : R -> R) (kv : R -> R -> R) (eps : R).

Lemma class_loss_renumbered l p b r y s y' s' : perm_on r p ->
  (forall x j, (x < b)%nat -> (j < r)%nat -> y' x (p j) = y x j) -> (forall x j, (x < b)%nat -> (j < r)%nat -> s' x (p j) = s x j) ->
  class_loss eps l b r y' s' = class_loss eps l b r y s.
Proof.
  intros PM HY HS.
  assert (Q : forall f f' : nat -> nat -> R, (forall x j, (x < b)%nat -> (j < r)%nat -> f' x (p j) = f x j) ->
    rsum b (fun x => rsum r (f' x)) = rsum b (fun x => rsum r (f x))).
  { intros f f' H. apply rsum_ext. intros x Hx. rewrite <- (rsum_perm r p (f' x) PM). apply rsum_ext. intros j Hj. apply H; auto. }
  destruct l; cbn [class_loss]; try reflexivity; apply (f_equal Some).
  - apply (Q (fun x j => if Rltb 0 (y x j) then - ln (Rmin (Rmax (prob r (s x) j) eps) (1 - eps)) else 0)
      (fun x j => if Rltb 0 (y' x j) then - ln (Rmin (Rmax (prob r (s' x) j) eps) (1 - eps)) else 0)).
    intros x j Hx Hj. rewrite HY by auto.
    assert (EP : prob r (s' x) (p j) = prob r (s x) j).
    { unfold prob. rewrite HS by auto. f_equal. rewrite <- (rsum_perm r p (fun c => exp (s' x c)) PM). apply rsum_ext.
      intros c Hc. rewrite HS by auto. reflexivity. }
    rewrite EP. reflexivity.
  - f_equal. apply (Q (fun x j => (s x j - y x j) ^ 2) (fun x j => (s' x j - y' x j) ^ 2)). intros x j Hx Hj. rewrite HY, HS by auto. reflexivity.
  - apply (Q (fun x j => huber_entry (3/2) (y x j - s x j)) (fun x j => huber_entry (3/2) (y' x j - s' x j))).
    intros x j Hx Hj. rewrite HY, HS by auto. reflexivity.
Qed.

Lemma class_value_renumbered s F K l train labels labels' N b n r c q p v v' :
  full_lib s F = Some K ->
  (forall x, (x < b)%nat -> nonsingular n (nbr_matrix (lk_cov gamma kv K (feature_count train) (reals s) []) (full_noise s F) train q x)) ->
  renumbered p labels labels' N r -> (forall x, (x < b)%nat -> (c x < N)%nat) -> (forall x j, (x < b)%nat -> (j < n)%nat -> (q x j < N)%nat) ->
  loo_class_value gamma kv eps s F l train labels b n r c q v -> loo_class_value gamma kv eps s F l train labels' b n r c q v' -> v' = v.
Proof.
  intros L NS (PM & _ & _ & HL) HC HQ (K0 & sc & Lo & L1 & SC & CL & ->) (K1 & sc' & Lo' & L2 & SC' & CL' & ->).
  rewrite L in L1, L2. injection L1 as <-. injection L2 as <-.
  assert (ES : forall x j, (x < b)%nat -> (j < r)%nat -> sc' x (p j) = sc x j).
  { intros x j Hx Hj. symmetry. refine (kriging_det n _ _ _ _ _ _ _ _ (NS x Hx) _ _ _ (SC x j Hx Hj) (SC' x (p j) Hx (proj1 PM j Hj))); auto.
    intros i Hi. symmetry. apply HL; auto. }
  rewrite (class_loss_renumbered l p b r (fun x j => at_ labels [c x; j]) sc _ sc' PM) in CL'; auto.
  rewrite CL in CL'. injection CL' as <-. reflexivity.
Qed.
End Value.

(** The objective of a given batch is the same function. *)
Lemma objective_renumbered ls : exact_solver ls -> forall slogdet eps gamma kv s F l draws train labels labels' ix nn N b n r c q names x0 bounds t t' p,
  model_ok s F -> bounds_ok s F -> positive_bounds s F -> leading_free s (k_ls (m_kernel (f_attr F))) ->
  get_opt_params s (f_attr F) = Ok (names, x0, bounds) -> (f_kind F = FixedScale \/ ~ In "noise"%string names) ->
  trainable s F train b n -> loo_well_posed (full_noise s F) train b n c q -> (0 < b)%nat ->
  dataset train N -> renumbered p labels labels' N r -> (2 <= r)%nat -> r <> n ->
  shape ix = [b] -> (forall x, (x < b)%nat -> at_ ix [x] = Z.of_nat (c x) /\ (c x < N)%nat) -> index_matrix nn b n N q ->
  scores_classes l ->
  full_train_tensors F ix nn train labels = Ok t -> full_train_tensors F ix nn train labels' = Ok t' ->
  forall x, in_box x bounds -> exists v,
    obj_fn ls slogdet eps gamma kv s F l [] None draws (tr_pair t) (tr_cross t) (tr_nn_targets t) (tr_targets t) (combine names x) = Ok v /\
    obj_fn ls slogdet eps gamma kv s F l [] None draws (tr_pair t') (tr_cross t') (tr_nn_targets t') (tr_targets t') (combine names x) = Ok v.
Proof.
  intros EX slogdet eps gamma kv s F l draws train labels labels' ix nn N b n r c q names x0 bounds t t' p MO BO PB LF EO SK TR WP Hb D RN Hr HN SI HC IM SL Et Et' x BX.
  pose proof RN as (PM & SH & SH' & HL).
  destruct (class_candidate ls EX slogdet eps gamma kv s F l draws train labels ix nn N b n r c q names x0 bounds t
    MO BO PB LF EO SK TR WP Hb D SH Hr HN SI HC IM SL Et x BX) as (s1 & F1 & v & E1 & _ & O1 & V1 & TR1 & WP1).
  destruct (class_candidate ls EX slogdet eps gamma kv s F l draws train labels' ix nn N b n r c q names x0 bounds t'
    MO BO PB LF EO SK TR WP Hb D SH' Hr HN SI HC IM SL Et' x BX) as (s2 & F2 & v' & E2 & _ & O2 & V2 & _ & _).
  rewrite E1 in E2. injection E2 as <- <-. destruct TR1 as (_ & (K & L & OK) & _).
  exists v. split; [exact O1|]. rewrite O2. f_equal.
  refine (class_value_renumbered gamma kv eps s1 F1 K l train labels labels' N b n r c q p v v' L _ RN _ _ V1 V2).
  - apply well_posed_ns; auto. apply (loo_wp _ _ _ _ c). exact WP1.
  - intros y Hy. apply HC; auto.
  - intros y j Hy Hj. apply IM; auto.
Qed.

(** ** The batch of all rows with mixed neighbours *)
Lemma nonconstant_same (l l' : list R) nn : List.length l' = List.length l -> integral l -> integral l' ->
  (forall u v, (u < List.length l)%nat -> (v < List.length l)%nat -> (nth u l 0 = nth v l 0 <-> nth u l' 0 = nth v l' 0)) ->
  nonconstant_row l' nn = nonconstant_row l nn.
Proof.
  intros LE I I' EQ.
  assert (B : forallb (fun i => (i <? List.length l)%nat) nn = true ->
    forall b b', nonconstant_row l nn = Ok b -> nonconstant_row l' nn = Ok b' -> b' = b).
  { intros FB b b' E E'. rewrite forallb_forall in FB.
    assert (MX : mixed l nn <-> mixed l' nn).
    { assert (FB' : forall i, In i nn -> (i < List.length l)%nat) by (intros i Hi; apply Nat.ltb_lt; apply FB; auto).
      unfold mixed. split; intros (u & v & Hu & Hv & NE); exists u, v; (split; [exact Hu|split; [exact Hv|]]); intros C; apply NE; apply EQ; auto. }
    destruct b, b'; try reflexivity; exfalso.
    - apply (nonconstant_row_false l' nn I' E'). apply MX. apply nonconstant_row_true; auto.
    - apply (nonconstant_row_false l nn I E). apply MX. apply nonconstant_row_true; auto. }
  revert B. unfold nonconstant_row. rewrite LE. destruct (forallb _ nn); [|reflexivity].
  destruct nn as [|a nn]; [reflexivity|]. cbn [map zmax zmin]. intros B. rewrite (B eq_refl _ _ eq_refl eq_refl). reflexivity.
Qed.

Lemma filtered_same knn hnsw w l l' bc draw : (List.length l <= bc)%nat -> List.length l' = List.length l -> integral l -> integral l' ->
  (forall u v, (u < List.length l)%nat -> (v < List.length l)%nat -> (nth u l 0 = nth v l 0 <-> nth u l' 0 = nth v l' 0)) ->
  get_balanced_batch knn hnsw w l' bc draw = get_balanced_batch knn hnsw w l bc draw.
Proof.
  intros LB LE I I' EQ. unfold get_balanced_batch. rewrite LE. destruct (Nat.ltb_spec bc (List.length l)); [lia|].
  unfold full_filtered_batch. rewrite LE. destruct (get_batch_nns knn hnsw w (seq 0 (List.length l))) as [r|]; cbn [bind]; [|reflexivity].
  assert (E : map (nonconstant_row l') (fst r) = map (nonconstant_row l) (fst r)).
  { apply map_ext. intros nn. apply nonconstant_same; auto. }
  rewrite E. reflexivity.
Qed.

(** ** make_classifier and do_classify *)
Section Do.
Variable ls : lsolver.
Hypothesis EX : exact_solver ls.
Variable slogdet : nat -> mat -> R * R.
Variable eps : R.
Variables (gamma : R -> R) (kv : R -> R -> R).
Variable knn : dict nnval -> list point -> point -> nat -> list (nat * R).
Variable hnsw : nnval -> list point -> point -> nat -> list (nat * R).
Variable dist : dict nnval -> point -> point -> R.
Hypothesis Hsk : sklearn_ok knn dist.

Lemma train_renumbered en method kw w train labels labels' N n r lo hi cl bc draw s F l draws names x0 bounds opt p :
  lower method = "exact"%string -> euclidean_kw kw -> nn_init en (rows_of train) n method kw = Ok w -> (n + 1 <= N)%nat -> (0 < n)%nat ->
  dataset train N -> distinct_rows train N (fun i => i) -> one_hot labels N (S r) lo hi cl -> lo < hi -> renumbered p labels labels' N (S r) ->
  model_ok s F -> bounds_ok s F -> positive_bounds s F -> leading_free s (k_ls (m_kernel (f_attr F))) ->
  get_opt_params s (f_attr F) = Ok (names, x0, bounds) -> (f_kind F = FixedScale \/ ~ In "noise"%string names) ->
  (forall b, trainable s F train b n) -> (forall x i, 0 <= noise_at (full_noise s F) None x i) ->
  scores_classes l -> model_fixed s (f_attr F) = Ok false -> (1 <= r)%nat -> S r <> n ->
  (exists i, contested train N n cl i) -> (N <= bc)%nat -> values_only opt s F names bounds ->
  train_classifier ls slogdet eps gamma kv opt knn hnsw en train labels' n bc method kw draw s F l draws =
  train_classifier ls slogdet eps gamma kv opt knn hnsw en train labels n bc method kw draw s F l draws.
Proof.
  intros Hm He Hi Hn Hn0 D DR OH LH RN MO BO PB LF EO SK TR NN SL MF R1 RNn CT CN VO.
  pose proof (one_hot_renumbered p labels labels' N (S r) lo hi cl RN OH) as OH'.
  (* the draws are not used: any valid ones will do *)
  set (draw0 := fun (_ : nat) (pop : list nat) c => firstn c pop).
  assert (HD : forall j pop c, (c <= List.length pop)%nat -> NoDup pop -> valid_choice pop c (draw0 j pop c)).
  { intros j pop c Hc ND. split; [apply firstn_length_le; auto|]. split.
    - revert c Hc. induction ND as [|a l0 Hin ND IH]; intros [|c] Hc; cbn; constructor.
      + intros C. apply Hin. rewrite <- (firstn_skipn c l0). apply in_app_iff. auto.
      + apply IH. cbn in Hc. lia.
    - intros a Ha. rewrite <- (firstn_skipn c pop). apply in_app_iff. auto. }
  destruct (class_batch knn hnsw dist Hsk en method kw w train labels N n r lo hi cl bc draw0 Hm He Hi Hn Hn0 D DR OH LH HD)
    as (classes & idx & nns & EC & EB & LN & GB & POS).
  specialize (POS CT (or_introl CN)).
  destruct (argmax_labels_ok labels N r lo hi cl OH LH) as (classes1 & EC1 & LC & IC & HV). rewrite EC in EC1. injection EC1 as <-.
  destruct (argmax_labels_ok labels' N r lo hi _ OH' LH) as (classes' & EC' & LC' & IC' & HV').
  assert (EQ : forall u v, (u < List.length classes)%nat -> (v < List.length classes)%nat ->
    (nth u classes 0 = nth v classes 0 <-> nth u classes' 0 = nth v classes' 0)).
  { intros u v Hu Hv. rewrite LC in Hu, Hv. rewrite !HV, !HV' by auto. destruct RN as ((PM1 & PM2) & _). destruct OH as (_ & _ & OH).
    split; intros E; apply INR_eq in E; f_equal; [rewrite E; reflexivity|]. apply PM2; auto; apply OH; auto. }
  assert (EBd : forall d, get_balanced_batch knn hnsw w classes bc d = Ok (idx, nns)).
  { intros d. rewrite <- EB. unfold get_balanced_batch. destruct (Nat.ltb_spec bc (List.length classes)); [lia|reflexivity]. }
  assert (EB' : get_balanced_batch knn hnsw w classes' bc draw = Ok (idx, nns)).
  { rewrite (filtered_same knn hnsw w classes classes' bc draw); auto; lia. }
  set (q := fun x j => nth j (nth x nns []) O) in *. set (c := fun i => nth i idx O) in *. set (b := List.length idx) in *.
  pose proof GB as (NDi & LB & HB).
  assert (WP : loo_well_posed (full_noise s F) train b n c q).
  { apply (others_well_posed _ train N); auto; intros x Hx; apply HB; auto. }
  assert (SI : shape (index_vector idx) = [b]) by reflexivity.
  assert (HC : forall x, (x < b)%nat -> at_ (index_vector idx) [x] = Z.of_nat (c x) /\ (c x < N)%nat).
  { intros x Hx. split; [reflexivity|]. apply HB; auto. }
  assert (IM : index_matrix (index_array n nns) b n N q).
  { split; [cbn; rewrite LN; reflexivity|]. intros x j Hx Hj. split; [reflexivity|]. destruct (HB x Hx) as (_ & (B & _) & _). apply B; auto. }
  destruct (TR b) as (B & (K & L & OK) & _).
  assert (SH : shape labels = [N; S r]) by apply OH. assert (SH' : shape labels' = [N; S r]) by apply OH'.
  destruct (class_tensors_ok gamma kv s F K train labels (index_vector idx) (index_array n nns) N b n (S r) c q B L OK D SH SI HC IM)
    as (t & _ & _ & Et & _).
  destruct (class_tensors_ok gamma kv s F K train labels' (index_vector idx) (index_array n nns) N b n (S r) c q B L OK D SH' SI HC IM)
    as (t' & _ & _ & Et' & _).
  unfold train_classifier. rewrite Hi. cbn [bind]. rewrite MF. cbn [bind]. rewrite EC, EC'. cbn [bind]. rewrite (EBd draw), EB'.
  cbn [bind fst snd]. rewrite Et, Et'. cbn [bind]. unfold optimize_call.
  rewrite (VO (obj_fn ls slogdet eps gamma kv s F l [] None draws (tr_pair t') (tr_cross t') (tr_nn_targets t') (tr_targets t'))
              (obj_fn ls slogdet eps gamma kv s F l [] None draws (tr_pair t) (tr_cross t) (tr_nn_targets t) (tr_targets t))); [reflexivity|].
  intros x BX. destruct (objective_renumbered ls EX slogdet eps gamma kv s F l draws train labels labels' (index_vector idx) (index_array n nns)
    N b n (S r) c q names x0 bounds t t' p MO BO PB LF EO SK (TR b) WP POS D RN ltac:(lia) RNn SI HC IM SL Et Et' x BX) as (v & O1 & O2).
  exists v. auto.
Qed.

(** classify_any with a model of the library and its own neighbour search. *)
Lemma work_renumbered en method kw w s F K v train test labels labels' N M n C p :
  lower method = "exact"%string -> euclidean_kw kw -> nn_init en (rows_of train) n method kw = Ok w -> (0 < n <= N /\ 0 < M)%nat -> S C <> n ->
  dataset test M -> dataset train N -> ndim test = ndim train -> feature_count test = feature_count train ->
  renumbered p labels labels' N (S C) -> distinct_rows train N (fun i => i) ->
  f_bound F = model_make s (f_attr F) -> full_lib s F = Some K -> lk_ok K (feature_count train) (reals s) [] ->
  full_noise s F = HomoscedasticNoise v -> 0 <= v ->
  (forall q x, (forall j, (j < n)%nat -> (q x j < N)%nat) -> (agree_first labels n q x <-> agree_first labels' n q x)) ->
  exists out out', work_classify_any ls knn hnsw (Univariate (full_mm gamma kv s F)) test train w labels = Ok out /\
    work_classify_any ls knn hnsw (Univariate (full_mm gamma kv s F)) test train w labels' = Ok out' /\
    scores_renumbered p out out' M (S C).
Proof.
  intros Hm He Hi Hn NC D1 D2 ND FC RN DR B L OK HN Hv AG.
  assert (GN : gp_noise (gp_bound s F) = full_noise s F) by (unfold gp_bound; rewrite B; reflexivity).
  destruct (lookup_rows knn hnsw dist Hsk en method kw w test train N M n Hm He Hi Hn D1 D2 FC) as (I & DD & EG & CW & IM & NR).
  destruct n as [|n]; [lia|].
  assert (SN : sound_noise (gp_noise (gp_bound s F)) train N M (S n)).
  { right. split; [|exact DR]. intros x i _ _. rewrite GN, HN. exact Hv. }
  destruct (classify_renumbered ls (gp_bound s F) (feature_count train) (lk_call gamma kv K (reals s) []) (lk_cov gamma kv K (feature_count train) (reals s) [])
     test train labels labels' (index_array (S n) I) N M n (nbr knn hnsw w test) C p) as (out & out' & E & E' & SR); auto; try lia.
  - right. exists v. rewrite GN. exact HN.
  - apply lk_pointwise; auto.
  - apply well_posed_ns; auto. apply (sound_well_posed _ test train N); auto.
  - intros x Hx. apply AG. intros j Hj. apply IM; auto.
  - exists out, out'.
    assert (T : forall lb o, classify_any (fun ix nn => posterior_mean_from_indices ls (gp_bound s F) (lk_call gamma kv K (reals s) []) ix nn test train lb) lb
        (index_array (S n) I) = Ok o -> work_classify_any ls knn hnsw (Univariate (full_mm gamma kv s F)) test train w lb = Ok o).
    { intros lb o Eo. unfold work_classify_any. rewrite EG. cbn [bind fst]. rewrite CW. rewrite <- Eo.
      unfold classify_any. destruct (shape lb) as [|a [|b [|c l]]]; auto.
      destruct (a =? 0)%nat; auto. destruct (b =? 0)%nat; auto. destruct (take lb (index_array (S n) I)) as [Lt|]; cbn [bind]; auto.
      destruct (shape Lt) as [|t [|u [|z l]]]; auto. destruct ((u =? 0) && negb (t =? 0))%nat%bool; auto.
      destruct (List.length (where_ t (nonconstant u Lt)) =? 0)%nat; auto.
      rewrite (mean_indices_ext ls (full_mm gamma kv s F) (lib_model gamma kv (gp_bound s F) K (reals s))); [reflexivity|reflexivity|].
      intros d. cbn [full_mm mm_kernel lib_model]. apply full_kernel_lk; auto. }
    split; [apply T; exact E|]. split; [apply T; exact E'|]. exact SR.
Qed.
End Do.
