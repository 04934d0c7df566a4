(** Proofs about the uncertainty-quantification workflow. *)
From Coq Require Import Lia Lra.
From Verif Require Import Base BaseFacts NdModel NdFacts RSum LinAlgModel LinAlgSpec LinAlgFacts
  GPModel NoiseModel MuyGPSModel MuyGPSProofs GPSpec GPTheorems TensorModel TensorSpec TensorProofs
  KernelModel KernelSpec FlowModel FlowSpec FlowProofs PointwiseSpec LibSpec LibProofs MultiModel DriverModel
  ClassifyModel ClassifySpec ClassifyProofs UqProofs WorkModel WorkSpec WorkProofs
  NeighborsModel NeighborsSpec NeighborsProofs BatchProofs BatchLemmas TrainSpec TrainProofs3 UqWorkModel UqWorkSpec.
Local Open Scope R_scope.

(** ** Regression of arbitrary rows *)
Section At.
Variables (gamma : R -> R) (kv : R -> R -> R).
Variable ls : lsolver.
Hypothesis EX : exact_solver ls.

Lemma regress_at g K cur kw ix nn test train targets N T M w c q ex :
  lk_ok K (feature_count train) cur kw -> dataset test T -> dataset train N -> ndim test = ndim train ->
  feature_count test = feature_count train -> shape targets = N :: ex -> no_coincidence ex [w] ->
  shape (gp_Kout g) = [] -> at_ (gp_Kout g) [] = 1 -> 0 <= gp_var_scale g ->
  shape ix = [M] -> (forall x, (x < M)%nat -> at_ ix [x] = Z.of_nat (c x) /\ (c x < T)%nat) ->
  index_matrix nn M w N q -> noise_fits (gp_noise g) M w -> well_posed (gp_noise g) train M w q ->
  exists mean var,
    regress_from_indices ls (mkMm g (lk_call gamma kv K cur kw)) ix nn test train targets = Ok (mean, var) /\
    shape mean = M :: ex /\ shape var = [M] /\
    forall x, (x < M)%nat ->
      (forall e, inb ex e ->
        kriging w (nbr_matrix (lk_cov gamma kv K (feature_count train) cur kw) (gp_noise g) train q x)
          (fun j => kcov (lk_cov gamma kv K (feature_count train) cur kw) test train (c x) (q x j))
          (fun j => at_ targets (q x j :: e)) (at_ mean (x :: e))) /\
      (exists wv, solves w (nbr_matrix (lk_cov gamma kv K (feature_count train) cur kw) (gp_noise g) train q x) wv
          (fun j => kcov (lk_cov gamma kv K (feature_count train) cur kw) test train (c x) (q x j)) /\
        at_ var [x] = gp_var_scale g *
          (1 - dot w wv (fun j => kcov (lk_cov gamma kv K (feature_count train) cur kw) test train (c x) (q x j)))) /\
      0 <= at_ var [x] <= gp_var_scale g.
Proof.
  intros OK D1 D2 ND FC HT NC SK K1 SC SI HC NN NF WP.
  set (k := lk_cov gamma kv K (feature_count train) cur kw).
  assert (PK : pointwise_kernel (feature_count train) (lk_call gamma kv K cur kw) k) by (apply lk_pointwise; auto).
  assert (NS : forall x, (x < M)%nat -> nonsingular w (nbr_matrix k (gp_noise g) train q x))
    by (apply well_posed_ns; auto).
  destruct (crosswise_kernel (feature_count train) (lk_call gamma kv K cur kw) k test train ix nn T N M w c q)
    as (cw & Kc & Ecw & EKc & SKc & HKc); auto.
  destruct (pairwise_kernel (feature_count train) (lk_call gamma kv K cur kw) k train nn N M w q PK D2 eq_refl NN)
    as (pw & Kin & Epw & EK & SKi & HKv).
  destruct (targets_take targets nn N M w q ex HT NN) as (Tt & ET & ST & HTv).
  assert (HKx : forall x, (x < M)%nat -> forall i j, (i < w)%nat -> (j < w)%nat ->
     plus_diag (rowmat Kin x) (noise_at (gp_noise g) None x) i j = nbr_matrix k (gp_noise g) train q x i j).
  { intros x Hx i j Hi Hj. unfold nbr_matrix, plus_diag, rowmat. rewrite HKv; auto. }
  assert (NS' : forall x, (x < M)%nat -> nonsingular w (plus_diag (rowmat Kin x) (noise_at (gp_noise g) None x))).
  { intros x Hx. apply (nonsingular_ext w (nbr_matrix k (gp_noise g) train q x)); auto. intros; symmetry; apply HKx; auto. }
  destruct (gp_mean_total ls EX (gp_noise g) None Kin Kc Tt M w ex NF SKi SKc ST NC NS') as (mean & Em & Sm & Hm).
  destruct (gp_var_total ls EX (gp_noise g) None Kin Kc (gp_Kout g) M w NF SKi SKc SK NS') as (v & Ev).
  destruct (gp_var_inv ls EX (gp_noise g) None Kin Kc (gp_Kout g) M w v NF SKi SKc SK Ev) as [Sv Hv].
  exists mean, (ndmap (Rmult (gp_var_scale g)) v). split.
  { unfold regress_from_indices. rewrite Ecw. cbn [bind]. rewrite Epw. cbn [bind]. rewrite ET. cbn [bind mm_kernel mm_gp].
    rewrite EK. cbn [bind]. rewrite EKc. cbn [bind]. unfold gp_posterior_mean. rewrite Em. cbn [bind].
    unfold gp_posterior_variance, gp_opt_variance. rewrite Ev. reflexivity. }
  split; [exact Sm|]. split; [exact Sv|]. intros x Hx.
  assert (SOL : forall wv, solves w (plus_diag (rowmat Kin x) (noise_at (gp_noise g) None x)) wv (rowvec Kc x) ->
     solves w (nbr_matrix k (gp_noise g) train q x) wv (fun j => kcov k test train (c x) (q x j))).
  { intros wv Hw. apply (solves_ext w (plus_diag (rowmat Kin x) (noise_at (gp_noise g) None x))); [apply HKx; auto|].
    intros i Hi. etransitivity; [exact (Hw i Hi)|]. unfold rowvec. apply HKc; auto. }
  split; [|].
  - intros e He. destruct (Hm x e Hx He) as (wv & Hw & Val). exists wv. split; [apply SOL; exact Hw|].
    rewrite Val. unfold dot. apply rsum_ext. intros j Hj. rewrite HTv; auto.
  - destruct (Hv x Hx) as (_ & wv & Hw & Val). apply SOL in Hw.
    assert (VE : at_ (ndmap (Rmult (gp_var_scale g)) v) [x] =
       gp_var_scale g * (1 - dot w wv (fun j => kcov k test train (c x) (q x j)))).
    { cbn [ndmap at_]. rewrite Val, K1. f_equal. f_equal. unfold dot, rowvec. apply rsum_ext. intros j Hj. rewrite HKc; auto. }
    split; [exists wv; split; auto|]. rewrite VE.
    assert (B : 0 <= 1 - dot w wv (fun j => kcov k test train (c x) (q x j)) <= 1).
    { apply (kriging_bounds gamma kv K (feature_count train) cur kw w (gp_noise g) train test q x (c x) wv); auto.
      intros i Hi. destruct (WP x Hx) as [P|[P _]]; [apply Rlt_le|]; apply P; auto. }
    nra.
Qed.
End At.

(** ** The calibration batch *)
Section Cal.
Variable knn : dict nnval -> list point -> point -> nat -> list (nat * R).
Variable hnsw : nnval -> list point -> point -> nat -> list (nat * R).
Variable dist : dict nnval -> point -> point -> R.
Hypothesis Hsk : sklearn_ok knn dist.

Lemma neighbourhood_others en method kw w train N n i nn :
  lower method = "exact"%string -> euclidean_kw kw -> nn_init en (rows_of train) n method kw = Ok w -> (n + 1 <= N)%nat ->
  dataset train N -> distinct_rows train N (fun i => i) -> (i < N)%nat -> neighbourhood knn hnsw w i nn ->
  nearest_others train N i n (fun j => nth j nn O) /\ List.length nn = n.
Proof.
  intros Hm He Hi Hn Dr DR Hlt (dists & EG).
  destruct (get_batch_nns_spec knn hnsw dist Hsk en (rows_of train) n method kw w [i] Hm He Hi) as (rows & Er & SP).
  rewrite (rows_of_ok _ _ Dr) in Er. injection Er as <-. rewrite map_length, seq_length in SP.
  destruct (SP Hn ltac:(discriminate)) as (I' & D & EG' & LI & LD & NE).
  { intros a [<-|[]]. exact Hlt. }
  { intros a b Ha Hb Hab. rewrite !row_pts_nth by auto. rewrite row_dist_sq by auto. intros Z.
    destruct (DR a b Ha Hb Hab) as (f & Hf & NF). apply NF. apply (row_dist_zero train train a b Z f Hf). }
  rewrite EG in EG'. injection EG' as <- <-. specialize (NE O ltac:(cbn; lia)). cbn [nth] in NE.
  rewrite row_pts_nth in NE by auto. pose proof NE as (LC & _).
  assert (LN : List.length nn = n).
  { assert (R : get_batch_nns knn hnsw w [i] = Ok ([nn], [dists])) by exact EG.
    destruct (nn_init_exact _ _ _ _ _ _ Hm Hi) as [rows [Er ->]]. rewrite (rows_of_ok _ _ Dr) in Er. injection Er as <-.
    rewrite get_batch_nns_rows in R.
    2:{ cbn [nn_train nn_count]. rewrite map_length, seq_length. exact Hn. }
    2:{ discriminate. }
    2:{ intros a [<-|[]]. cbn [nn_train]. rewrite map_length, seq_length. exact Hlt. }
    cbn [map] in R. injection R as R1 R2.
    assert (LL : List.length nn = List.length dists).
    { rewrite <- R1, <- R2. destruct (query_row _ _ _ _ _); cbn [map tl]; rewrite ?map_length; reflexivity. }
    rewrite combine_length in LC. lia. }
  split; [|exact LN].
  apply nearest_others_of in NE; [|auto].
  assert (EQ : forall j, (j < n)%nat -> nth j (map fst (combine nn dists)) O = nth j nn O).
  { intros j Hj. apply nth_combine_fst. lia. }
  destruct NE as (N1 & N2 & N3 & N4). split; [|split; [|split]].
  - intros j Hj. rewrite <- EQ by auto. auto.
  - intros a b Ha Hb. rewrite <- !EQ by auto. auto.
  - intros a b Hab Hb. rewrite <- !EQ by lia. apply N3; auto.
  - intros a Ha Hac NA j Hj. rewrite <- EQ by auto. apply N4; auto. intros a' Ha'. rewrite EQ by auto. auto.
Qed.

Lemma Forall2_nth_both {A B} (P : A -> B -> Prop) a b l l' : Forall2 P l l' -> forall i, (i < List.length l)%nat -> P (nth i l a) (nth i l' b).
Proof. induction 1; intros i Hi; [cbn in Hi; lia|]. destruct i; cbn; auto. apply IHForall2. cbn in Hi; lia. Qed.
Lemma Forall2_len {A B} (P : A -> B -> Prop) l l' : Forall2 P l l' -> List.length l = List.length l'.
Proof. induction 1; cbn; auto. Qed.

Lemma calibration en method kw w train N n labels bc draw :
  lower method = "exact"%string -> euclidean_kw kw -> nn_init en (rows_of train) n method kw = Ok w -> (n + 1 <= N)%nat -> (0 < n)%nat ->
  dataset train N -> distinct_rows train N (fun i => i) -> List.length labels = N ->
  (forall j pop n, (n <= List.length pop)%nat -> NoDup pop -> valid_choice pop n (draw j pop n)) ->
  exists idx nns, get_balanced_batch knn hnsw w labels bc draw = Ok (idx, nns) /\
    NoDup idx /\ (List.length idx <= bc)%nat /\ List.length nns = List.length idx /\
    forall x, (x < List.length idx)%nat -> (nth x idx O < N)%nat /\
      nearest_others train N (nth x idx O) n (fun j => nth j (nth x nns []) O) /\
      exists i j, (i < n)%nat /\ (j < n)%nat /\
        nth (nth i (nth x nns []) O) labels 0 <> nth (nth j (nth x nns []) O) labels 0.
Proof.
  intros Hm He Hi Hn Hn0 Dr DR HL HD.
  assert (T : exists idx nns, get_balanced_batch knn hnsw w labels bc draw = Ok (idx, nns)).
  { pose proof Hi as Hi'. destruct (nn_init_exact _ _ _ _ _ _ Hm Hi') as [rows [Er ->]]. rewrite (rows_of_ok _ _ Dr) in Er. injection Er as <-.
    apply (balanced_total knn hnsw dist Hsk); auto; rewrite map_length, seq_length; auto. }
  destruct T as (idx & nns & E). exists idx, nns. split; [exact E|].
  destruct (get_balanced_rows knn hnsw w labels bc draw idx nns E HD) as (ND & LT & LEN & F2).
  split; [exact ND|]. split; [exact LEN|]. split; [symmetry; apply (Forall2_len _ _ _ F2)|].
  intros x Hx. assert (HI : (nth x idx O < N)%nat) by (rewrite <- HL; apply LT; apply nth_In; auto).
  pose proof (Forall2_nth_both _ O [] _ _ F2 x Hx) as [NB (a & b & Ha & Hb & Hab)].
  destruct (neighbourhood_others en method kw w train N n (nth x idx O) (nth x nns [])) as [NO LN]; auto.
  split; [exact HI|]. split; [exact NO|].
  apply (In_nth _ _ O) in Ha as (i & Hi1 & <-). apply (In_nth _ _ O) in Hb as (j & Hj1 & <-).
  exists i, j. rewrite LN in Hi1, Hj1. auto.
Qed.
End Cal.

(** ** Two-class labels *)
Section Labels.
Variables (labels : nd R) (N : nat) (lo hi : R) (cl : nat -> nat).
Hypothesis OH : one_hot labels N 2 lo hi cl.
Hypothesis LH : lo < hi.

Lemma label_value i c : (i < N)%nat -> (c < 2)%nat -> at_ labels [i; c] = if (c =? cl i)%nat then hi else lo.
Proof. intros Hi Hc. destruct OH as (_ & _ & H). apply H; auto. Qed.
Lemma class_two i : (i < N)%nat -> cl i = 0%nat \/ cl i = 1%nat.
Proof. intros Hi. destruct OH as (_ & _ & H). destruct (H i Hi) as [B _]. lia. Qed.

Lemma signs_ok : exists signs, sign_labels labels = Ok signs /\ List.length signs = N /\
  forall i, (i < N)%nat -> nth i signs 0 = 2 * INR (cl i) - 1.
Proof.
  destruct OH as (_ & S & _). unfold sign_labels. rewrite S.
  eexists. split; [reflexivity|]. rewrite map_length, seq_length. split; [reflexivity|]. intros i Hi.
  rewrite (nth_indep _ 0 ((fun i => 2 * INR (np_argmax 1 (fun j => at_ labels [i; j])) - 1) O)) by (rewrite map_length, seq_length; auto).
  rewrite (map_nth (fun i => 2 * INR (np_argmax 1 (fun j => at_ labels [i; j])) - 1)), seq_nth by auto. cbn [plus].
  f_equal. f_equal. f_equal. cbn [np_argmax]. rewrite !label_value by auto. unfold Rltb.
  destruct (class_two i Hi) as [-> | ->]; cbn [Nat.eqb]; destruct (Rlt_dec _ _); auto; lra.
Qed.

Lemma mid_ok : (0 < N)%nat -> mid_label labels = Ok ((lo + hi) / 2).
Proof.
  intros HN. pose proof OH as (_ & S & _). unfold mid_label. rewrite S. destruct N as [|N'] eqn:EN; [lia|]. f_equal. f_equal.
  cbn [np_min np_max]. rewrite <- EN in *. rewrite !label_value by lia.
  destruct (class_two 0 ltac:(lia)) as [-> | ->]; cbn [Nat.eqb]; unfold Rmin, Rmax; repeat destruct (Rle_dec _ _); lra.
Qed.

Lemma agree_classes q n x : (forall j, (j < n)%nat -> (q x j < N)%nat) -> (0 < n)%nat ->
  (agree_first labels n q x <-> forall j, (j < n)%nat -> cl (q x j) = cl (q x O)).
Proof.
  intros HQ Hn. unfold agree_first. split; intros H j Hj; specialize (H j Hj).
  - rewrite !label_value in H by (auto; lia).
    destruct (class_two (q x j) (HQ j Hj)) as [E1|E1], (class_two (q x O) (HQ O Hn)) as [E2|E2]; rewrite E1, E2 in *; cbn [Nat.eqb] in H;
      auto; lra.
  - rewrite !label_value by (auto; lia). rewrite H. reflexivity.
Qed.
End Labels.

Lemma cutoffs_total mean var correct objectives : Forall grid_objective objectives ->
  exists cuts, train_cutoffs mean var correct objectives = Ok cuts.
Proof.
  unfold train_cutoffs. induction 1 as [|f fs Hf Hfs [cuts IH]]; [exists []; reflexivity|]. cbn [map sequence].
  destruct (norm_index grid_count _) as [i|] eqn:E.
  - cbn [bind]. rewrite IH. cbn [bind]. eauto.
  - exfalso. revert E. unfold norm_index. 
    specialize (Hf (fun i => alpha mean var (map negb correct) (cutv i)) (fun i => beta mean var correct (cutv i))
      (count_true correct) (count_true (map negb correct))).
    destruct (Z.leb_spec 0 (f (fun i => alpha mean var (map negb correct) (cutv i)) (fun i => beta mean var correct (cutv i)) (count_true correct) (count_true (map negb correct)))); [|lia].
    destruct (Z.ltb_spec (f (fun i => alpha mean var (map negb correct) (cutv i)) (fun i => beta mean var correct (cutv i)) (count_true correct) (count_true (map negb correct))) (Z.of_nat grid_count)); [|lia].
    discriminate.
Qed.

Lemma train_cutoffs_each mean var correct objectives cuts o f :
  train_cutoffs mean var correct objectives = Ok cuts -> nth_error objectives o = Some f ->
  exists cut, nth_error cuts o = Some cut /\ train_cutoffs mean var correct [f] = Ok [cut].
Proof.
  unfold train_cutoffs. revert cuts o. induction objectives as [|h fs IH]; cbn [map sequence]; intros cuts o H Ho; [destruct o; discriminate|].
  destruct (norm_index grid_count _) as [i|] eqn:E; cbn [bind] in H; [|discriminate].
  destruct (sequence _) as [l|] eqn:E'; cbn [bind] in H; [|discriminate]. injection H as <-.
  destruct o as [|o]; cbn [nth_error] in *.
  - injection Ho as ->. exists (cutv i). split; [reflexivity|]. rewrite E. reflexivity.
  - destruct (IH l o eq_refl Ho) as (cut & H1 & H2). exists cut. auto.
Qed.

Lemma how_many_ext t P Q : (forall x, (x < t)%nat -> P x = Q x) -> how_many t P = how_many t Q.
Proof. induction t; intros H; cbn; auto. rewrite IHt, H by auto. reflexivity. Qed.

Lemma count_right t right : count_true (map right (seq 0 t)) = how_many t right.
Proof. apply count_true_seq. Qed.

Lemma selected mean var right t f cut hit : List.length mean = t -> List.length var = t -> grid_objective f ->
  (forall x cut, (x < t)%nat -> (hit cut x = true <-> interval_contains (nth x mean 0) (cut * sqrt (nth x var 0)) 0)) ->
  train_cutoffs mean var (map right (seq 0 t)) [f] = Ok [cut] -> selected_cutoff t right hit f cut.
Proof.
  intros Hm Hv Hf Hh. unfold train_cutoffs. cbn [map sequence].
  set (al := fun i => alpha mean var (map negb (map right (seq 0 t))) (cutv i)).
  set (be := fun i => beta mean var (map right (seq 0 t)) (cutv i)).
  rewrite (map_map right negb), !count_right. specialize (Hf al be (how_many t right) (how_many t (fun x => negb (right x)))).
  destruct (norm_index grid_count _) as [i|] eqn:E; cbn [bind]; [|discriminate]. intros H. injection H as <-.
  exists al, be, i.
  assert (Hhit : forall cut x, (x < t)%nat -> in_train_interval (nth x mean 0) (nth x var 0) cut = hit cut x).
  { intros cut x Hx. apply eq_true_iff_eq. rewrite in_train_spec, Hh by auto. reflexivity. }
  split; [|split; [|split; [|split]]].
  - intros j. unfold al. destruct (rates mean var right (cutv j) t Hm Hv) as [-> _].
    destruct (Nat.eqb_spec (how_many t (fun x => negb (right x))) 0); [reflexivity|]. f_equal. f_equal. unfold fraction. f_equal. f_equal.
    apply how_many_ext. intros x Hx. rewrite Hhit by auto. reflexivity.
  - intros j. unfold be. destruct (rates mean var right (cutv j) t Hm Hv) as [_ ->].
    destruct (Nat.eqb_spec (how_many t right) 0); [reflexivity|]. f_equal. unfold fraction. f_equal. f_equal.
    apply how_many_ext. intros x Hx. rewrite Hhit by auto. reflexivity.
  - revert E. unfold norm_index. destruct (Z.leb_spec 0 (f al be (how_many t right) (how_many t (fun x => negb (right x))))); [|lia].
    destruct (Z.ltb_spec (f al be (how_many t right) (how_many t (fun x => negb (right x)))) (Z.of_nat grid_count)); [|lia].
    cbn [andb]. intros H1. injection H1 as <-. rewrite Z2Nat.id by lia. reflexivity.
  - apply norm_index_some in E. apply E.
  - reflexivity.
Qed.

(** ** The workflow *)
Section Main.
Variables (gamma : R -> R) (kv : R -> R -> R).
Variable ls : lsolver.
Hypothesis EX : exact_solver ls.
Variable knn : dict nnval -> list point -> point -> nat -> list (nat * R).
Variable hnsw : nnval -> list point -> point -> nat -> list (nat * R).
Variable dist : dict nnval -> point -> point -> R.
Hypothesis Hsk : sklearn_ok knn dist.
Variables (en : bool) (method : string) (kw : dict nnval) (w : nn_wrapper) (g : gp) (K : libkernel) (cur : nat -> R).
Variables (test train labels : nd R) (N M n : nat) (lo hi : R) (cl : nat -> nat).
Hypothesis Hm : lower method = "exact"%string.
Hypothesis He : euclidean_kw kw.
Hypothesis Hi : nn_init en (rows_of train) n method kw = Ok w.
Hypothesis Hn : (n + 1 <= N /\ 0 < M)%nat.
Hypothesis Hn0 : (0 < n)%nat.
Hypothesis N2 : n <> 2%nat.
Hypothesis D1 : dataset test M.
Hypothesis T2 : ndim test = 2%nat.
Hypothesis D2 : dataset train N.
Hypothesis ND : ndim test = ndim train.
Hypothesis FC : feature_count test = feature_count train.
Hypothesis DR : distinct_rows train N (fun i => i).
Hypothesis OK : lk_ok K (feature_count train) cur [].
Hypothesis SK : shape (gp_Kout g) = [].
Hypothesis K1 : at_ (gp_Kout g) [] = 1.
Hypothesis SC : 0 <= gp_var_scale g.
Hypothesis UN : uniform_noise (gp_noise g).
Hypothesis NP : forall x i, 0 <= noise_at (gp_noise g) None x i.
Hypothesis OH : one_hot labels N 2 lo hi cl.
Hypothesis LH : lo < hi.
Let k := lk_cov gamma kv K (feature_count train) cur [].
Let mdl := mkMm g (lk_call gamma kv K cur []).

Lemma nbr_row q q' x x' : (forall j, (j < n)%nat -> q' x' j = q x j) ->
  forall i j, (i < n)%nat -> (j < n)%nat -> nbr_matrix k (gp_noise g) train q' x' i j = nbr_matrix k (gp_noise g) train q x i j.
Proof.
  intros H i j Hi' Hj. unfold nbr_matrix, plus_diag. rewrite !H by auto. rewrite (noise_uniform _ x' x) by auto. reflexivity.
Qed.

Lemma uq_predictions : exists means vars q, work_classify_uq ls knn hnsw mdl test train w labels = Ok (means, vars) /\
  shape means = [M; 2%nat] /\ shape vars = [M] /\
  forall x, (x < M)%nat -> nearest_rows test train N x n (q x) /\
    uq_prediction k (gp_noise g) (gp_var_scale g) test train n q cl lo hi x (fun c => at_ means [x; c]) (at_ vars [x]).
Proof.
  destruct (lookup_rows knn hnsw dist Hsk en method kw w test train N M n Hm He Hi ltac:(lia) D1 D2 FC) as (I & D & EG & CW & IM & NR).
  set (q := nbr knn hnsw w test) in *.
  assert (SH : shape labels = [N; 2%nat]) by apply OH.
  assert (HQ : forall x, (x < M)%nat -> forall j, (j < n)%nat -> (q x j < N)%nat).
  { intros x Hx j Hj. apply (NR x Hx); auto. }
  set (G := fun x c v => kriging n (nbr_matrix k (gp_noise g) train q x) (fun j => kcov k test train x (q x j))
     (fun j => at_ labels [q x j; c]) v).
  set (H := fun x v => (exists wv, solves n (nbr_matrix k (gp_noise g) train q x) wv (fun j => kcov k test train x (q x j)) /\
     v = gp_var_scale g * (1 - dot n wv (fun j => kcov k test train x (q x j)))) /\ 0 <= v <= gp_var_scale g).
  assert (ANS : answers_uq (fun ix nn => regress_from_indices ls mdl ix nn test train labels) (index_array n I) M n 2
     (fun x => ~ agree_first labels n q x) G H).
  { intros ix nn b r Hb (SI & SN & HR) RB.
    assert (IMr : index_matrix nn b n N (fun i j => q (r i) j)).
    { split; [exact SN|]. intros i j Hi' Hj. destruct (HR i Hi') as [_ E]. rewrite E by auto. destruct IM as [_ IM]. apply IM; auto. apply RB; auto. }
    destruct (regress_at gamma kv ls EX g K cur [] ix nn test train labels N M b n r (fun i j => q (r i) j) [2%nat]) as (mean & var & E & S1 & S2 & V); auto.
    - split; cbn; [lia|]. intros i Hi'. destruct i as [|[|i]]; cbn; lia.
    - intros i Hi'. destruct (HR i Hi') as [A _]. split; [exact A|apply RB; auto].
    - apply uniform_fits; auto.
    - intros i Hi'. right. split; [intros; apply NP|]. destruct (NR (r i)) as (B1 & B2 & _); [apply RB; auto|].
      intros a a' Ha Ha' Haa. apply DR; auto.
    - exists mean, var. split; [exact E|]. split; [exact S1|]. split; [exact S2|].
      assert (NB : forall i, (i < b)%nat -> forall a a', (a < n)%nat -> (a' < n)%nat ->
         nbr_matrix k (gp_noise g) train (fun i j => q (r i) j) i a a' = nbr_matrix k (gp_noise g) train q (r i) a a').
      { intros i Hi' a a' Ha Ha'. apply (nbr_row q (fun i j => q (r i) j) (r i) i); auto. }
      split.
      + intros i c Hi' Hc. destruct (V i Hi') as (V1 & _). specialize (V1 [c] ltac:(apply inb1; auto)).
        destruct V1 as (wv & W1 & W2). exists wv. split; [|exact W2]. apply (solves_ext n _ _ _ _ _ (NB i Hi') (fun _ _ => eq_refl)) in W1 || eapply solves_ext; [apply (NB i Hi')|exact W1].
      + intros i Hi'. destruct (V i Hi') as (_ & (wv & W1 & W2) & V3). split; [|exact V3]. exists wv. split; [|exact W2].
        eapply solves_ext; [apply (NB i Hi')|exact W1]. }
  assert (En : S (n - 1) = n) by lia.
  pose proof (uq_value (fun ix nn => regress_from_indices ls mdl ix nn test train labels) labels (index_array n I) N M (n - 1) q G H) as UV.
  rewrite En in UV. destruct (UV SH IM ANS) as (means & vars & E & S1 & S2 & V). clear UV.
  exists means, vars, q. split.
  { unfold work_classify_uq. unfold ndim in T2. destruct (shape test) as [|a [|b [|c l]]]; try discriminate.
    rewrite EG. cbn [bind fst]. rewrite CW. exact E. }
  split; [exact S1|]. split; [exact S2|]. intros x Hx. split; [apply NR; auto|]. destruct (V x Hx) as [V1 V2].
  pose proof (agree_classes labels N lo hi cl OH LH q n x (HQ x Hx) Hn0) as AG. split.
  - intros A. apply AG in A. destruct (V1 A) as [B1 B2]. split; [exact B1|]. intros c Hc. rewrite B2 by auto.
    apply (label_value labels N lo hi cl OH); auto.
  - intros (j & Hj & NE). destruct V2 as [[W1 W2] W3].
    { intros A. apply NE. apply AG; auto. }
    split; [|split; [exact W1|exact W2]]. intros c Hc. destruct (W3 c Hc) as (wv & U1 & U2). exists wv. split; [exact U1|].
    rewrite U2. unfold dot. apply rsum_ext. intros i Hi'. rewrite (label_value labels N lo hi cl OH) by auto. reflexivity.
Qed.

(** Whether row [x] of the batch is predicted correctly. *)
Definition right_at (idx : list nat) (mean : nat -> nat -> R) (x : nat) : bool :=
  (np_argmax 1 (mean x) =? cl (nth x idx O))%nat.

Lemma right_spec idx mean x : right_at idx mean x = true <-> is_argmax 2 (mean x) (cl (nth x idx O)).
Proof.
  unfold right_at. rewrite Nat.eqb_eq. split.
  - intros <-. apply np_argmax_spec.
  - intros A. apply (is_argmax_unique 2 (mean x)); auto. apply (np_argmax_spec 1).
Qed.

Lemma interval_trained idx nns signs objectives :
  List.length nns = List.length idx ->
  (forall x, (x < List.length idx)%nat -> (nth x idx O < N)%nat /\
     nearest_others train N (nth x idx O) n (fun j => nth j (nth x nns []) O)) ->
  (forall i, (i < N)%nat -> nth i signs 0 = 2 * INR (cl i) - 1) ->
  exists mean var,
    batch_predictions k (gp_noise g) (gp_var_scale g) train n idx (fun x j => nth j (nth x nns []) O) cl lo hi mean var /\
    two_class_interval ls mdl idx nns n train labels signs objectives =
      train_cutoffs (map (fun x => mean x 1%nat) (seq 0 (List.length idx))) (map var (seq 0 (List.length idx)))
        (map (right_at idx mean) (seq 0 (List.length idx))) objectives.
Proof.
  intros LN HX HS. set (q := fun x j => nth j (nth x nns []) O).
  assert (IM : index_matrix (index_array n nns) (List.length idx) n N q).
  { split; [cbn; rewrite LN; reflexivity|]. intros x j Hx Hj. split; [reflexivity|]. destruct (HX x Hx) as (_ & B & _). apply B; auto. }
  destruct (regress_at gamma kv ls EX g K cur [] (index_vector idx) (index_array n nns) train train labels N N (List.length idx) n
    (fun x => nth x idx O) q [2%nat]) as (mean & var & E & S1 & S2 & V); auto.
  - apply OH.
  - split; cbn; [lia|]. intros i Hi'. destruct i as [|[|i]]; cbn; lia.
  - intros x Hx. split; [reflexivity|apply HX; auto].
  - apply uniform_fits; auto.
  - intros x Hx. right. split; [intros; apply NP|]. destruct (HX x Hx) as (_ & B1 & B2 & _).
    intros a a' Ha Ha' Haa. apply DR; auto; try (apply B1; auto). 
  - exists (fun x c => at_ mean [x; c]), (fun x => at_ var [x]). split.
    + intros x Hx. destruct (V x Hx) as (V1 & V2 & _). split; [|exact V2]. intros c Hc.
      destruct (V1 [c] ltac:(apply inb1; auto)) as (wv & W1 & W2). exists wv. split; [exact W1|]. rewrite W2. unfold dot. apply rsum_ext.
      intros j Hj. rewrite (label_value labels N lo hi cl OH); auto. apply IM; auto.
    + unfold two_class_interval, mdl. rewrite E. cbn [bind fst snd]. rewrite S1. f_equal. apply map_ext_in. intros x Hx. apply in_seq in Hx.
      rewrite HS by (apply HX; lia). unfold right_at. apply eq_true_iff_eq. rewrite Nat.eqb_eq. unfold Reqb.
      destruct (Req_EM_T _ _) as [H|H].
      * split; auto. intros _. apply INR_eq. lra.
      * split; [discriminate|]. intros H'. exfalso. apply H. rewrite H'. reflexivity.
Qed.

Variable spec : Type.
Variable make : spec -> result mmodel.
Variable fixed : mmodel -> result bool.
Variable batch : nn_wrapper -> result unit.
Variable opt : nn_wrapper -> option nat -> mmodel -> result mmodel.
Variable sp : spec.
Hypothesis MK : (make sp = Ok mdl /\ fixed mdl = Ok true) \/
  exists m0, make sp = Ok m0 /\ fixed m0 = Ok false /\ batch w = Ok tt /\ opt w None m0 = Ok mdl.
Variables (bc : nat) (draw : nat -> list nat -> nat -> list nat).
Hypothesis HD : forall j pop c, (c <= List.length pop)%nat -> NoDup pop -> valid_choice pop c (draw j pop c).

Lemma classify_uq_workflow objectives : Forall grid_objective objectives ->
  exists means vars masks cuts q idx nq mean var right hit,
    do_classify_uq ls knn hnsw spec make fixed batch opt en test train labels n bc method kw sp objectives draw
      = Ok (mdl, w, means, masks) /\
    shape means = [M; 2%nat] /\
    (forall x, (x < M)%nat -> nearest_rows test train N x n (q x) /\
       uq_prediction k (gp_noise g) (gp_var_scale g) test train n q cl lo hi x (fun c => at_ means [x; c]) (vars x)) /\
    NoDup idx /\ (List.length idx <= bc)%nat /\
    (forall x, (x < List.length idx)%nat -> (nth x idx O < N)%nat /\ nearest_others train N (nth x idx O) n (nq x) /\
       exists i j, (i < n)%nat /\ (j < n)%nat /\ cl (nq x i) <> cl (nq x j)) /\
    batch_predictions k (gp_noise g) (gp_var_scale g) train n idx nq cl lo hi mean var /\
    (forall x, (x < List.length idx)%nat -> (right x = true <-> is_argmax 2 (mean x) (cl (nth x idx O))) /\
       forall cut, hit cut x = true <-> interval_contains (mean x 1%nat) (cut * sqrt (var x)) 0) /\
    List.length cuts = List.length objectives /\ List.length masks = List.length objectives /\
    (forall o f, nth_error objectives o = Some f -> exists cut row,
       nth_error cuts o = Some cut /\ nth_error masks o = Some row /\
       selected_cutoff (List.length idx) right hit f cut /\
       (forall a, f = weighted_objective a ->
          (0 < how_many (List.length idx) right)%nat -> (0 < how_many (List.length idx) (fun x => negb (right x)))%nat ->
          forall cut', on_cutoff_grid cut' ->
            a * (1 - fraction (List.length idx) (fun x => negb (right x)) (hit cut)) + fraction (List.length idx) right (hit cut) <=
            a * (1 - fraction (List.length idx) (fun x => negb (right x)) (hit cut')) + fraction (List.length idx) right (hit cut')) /\
       List.length row = M /\
       forall x, (x < M)%nat -> (nth x row false = true <->
         interval_contains (at_ means [x; 1%nat]) (cut * vars x) ((lo + hi) / 2))).
Proof.
  intros HO. destruct uq_predictions as (means & vars & q & EW & S1 & S2 & V).
  destruct (signs_ok labels N lo hi cl OH LH) as (signs & ES & LS & HS).
  destruct (calibration knn hnsw dist Hsk en method kw w train N n signs bc draw) as (idx & nns & EB & NDi & LB & LN & HB); auto; try lia.
  destruct (interval_trained idx nns signs objectives LN) as (mean & var & BP & EI); auto.
  { intros x Hx. destruct (HB x Hx) as (B1 & B2 & _). auto. }
  set (t := List.length idx) in *.
  set (lm := map (fun x => mean x 1%nat) (seq 0 t)) in *. set (lv := map var (seq 0 t)) in *.
  assert (Llm : List.length lm = t) by (unfold lm; rewrite map_length, seq_length; reflexivity).
  assert (Llv : List.length lv = t) by (unfold lv; rewrite map_length, seq_length; reflexivity).
  assert (NTH : forall (h : nat -> R) x, (x < t)%nat -> nth x (map h (seq 0 t)) 0 = h x).
  { intros h x Hx. rewrite (nth_indep _ 0 (h O)) by (rewrite map_length, seq_length; auto).
    rewrite (map_nth h), seq_nth by auto. reflexivity. }
  destruct (cutoffs_total lm lv (map (right_at idx mean) (seq 0 t)) objectives HO) as (cuts & EC).
  destruct (train_cutoffs_grid _ _ _ _ _ EC) as [LC GC].
  destruct (make_masks_ok means cuts vars ((lo + hi) / 2) M 0 S1 (or_introl S2)) as (masks & EM & LM & HM).
  set (hit := fun cut x => in_train_interval (nth x lm 0) (nth x lv 0) cut).
  assert (HH : forall x cut, (x < t)%nat -> (hit cut x = true <-> interval_contains (nth x lm 0) (cut * sqrt (nth x lv 0)) 0)).
  { intros x cut Hx. unfold hit. apply in_train_spec. }
  exists means, (fun x => at_ vars [x]), masks, cuts, q, idx, (fun x j => nth j (nth x nns []) O), mean, var, (right_at idx mean), hit.
  split.
  { unfold do_classify_uq. rewrite Hi. unfold make_classifier. cbn [bind rmap].
    assert (MC : (let! m := make sp in let! f := fixed m in if f then Ok m else let! _ := batch w in opt w None m) = Ok mdl).
    { destruct MK as [[-> F]|(m0 & -> & F & B & P)]; cbn [bind]; rewrite F; cbn [bind]; auto. rewrite B. cbn [bind]. exact P. }
    rewrite MC. cbn [bind]. rewrite EW. cbn [bind]. rewrite (mid_ok labels N lo hi cl OH) by lia. cbn [bind]. rewrite ES. cbn [bind].
    rewrite EB. cbn [bind fst snd]. rewrite EI, EC. cbn [bind]. rewrite EM. reflexivity. }
  split; [exact S1|]. split; [exact V|]. split; [exact NDi|]. split; [exact LB|]. split.
  { intros x Hx. destruct (HB x Hx) as (B1 & B2 & i & j & Hi' & Hj & NE). split; [exact B1|]. split; [exact B2|]. exists i, j.
    split; [exact Hi'|]. split; [exact Hj|]. intros C. apply NE. destruct B2 as (B2 & _). rewrite !HS by (apply B2; auto). rewrite C. reflexivity. }
  split; [exact BP|]. split.
  { intros x Hx. split; [apply right_spec|]. intros cut. rewrite HH by auto. unfold lm, lv. rewrite !NTH by auto. reflexivity. }
  split; [exact LC|]. split; [congruence|].
  intros o f Ho. destruct (train_cutoffs_each _ _ _ _ _ o f EC Ho) as (cut & NC & E1).
  destruct (HM o cut NC) as (row & R1 & R2 & R3). exists cut, row. split; [exact NC|]. split; [exact R1|]. split.
  { apply (selected lm lv (right_at idx mean) t f cut hit); auto. rewrite Forall_forall in HO. apply HO. apply (nth_error_In _ o); auto. }
  split.
  { intros a -> P1 P2. destruct (weighted_optimal lm lv (right_at idx mean) t a hit Llm Llv HH P1 P2) as (c2 & E2 & _ & OP).
    rewrite E2 in E1. injection E1 as ->. exact OP. }
  split; [exact R2|].
  intros x Hx. rewrite R3 by auto. unfold var_at. rewrite S2. reflexivity.
Qed.
End Main.

Lemma argmin_le n f : (np_argmin n f <= n)%nat.
Proof. induction n; cbn [np_argmin]; [lia|]. repeat destruct (is_nan _); try destruct (num_ltb _ _); lia. Qed.

Lemma lambdas_grid : Forall grid_objective example_lambdas.
Proof.
  assert (H : forall f, (0 <= Z.of_nat (np_argmin (grid_count - 1) f) < Z.of_nat grid_count)%Z).
  { intros f. pose proof (argmin_le (grid_count - 1) f). pose proof grid_pos. lia. }
  unfold example_lambdas. repeat (apply Forall_cons; [intros al be c i; unfold weighted_objective, counted_objective; apply H|]). constructor.
Qed.

Lemma lambdas_are (al be : nat -> num) (a b : nat -> R) hits misses :
  (forall i, al i = Fin (a i)) -> (forall i, be i = Fin (b i)) ->
  List.length example_lambdas = 5%nat /\
  forall j w v, nth_error [(1, 1); (2, 1); (4, 1); (10, 1); (INR misses, INR hits)] j = Some (w, v) ->
    exists f p, nth_error example_lambdas j = Some f /\ f al be hits misses = Z.of_nat p /\ (p < grid_count)%nat /\
      (forall i, (i < grid_count)%nat -> w * a p + v * b p <= w * a i + v * b i) /\
      (forall i, (i < p)%nat -> w * a p + v * b p < w * a i + v * b i).
Proof.
  intros Ha Hb. split; [reflexivity|].
  assert (M : forall w v, exists p, np_argmin (grid_count - 1) (fun i => num_lin w (al i) v (be i)) = p /\ (p < grid_count)%nat /\
      (forall i, (i < grid_count)%nat -> w * a p + v * b p <= w * a i + v * b i) /\
      (forall i, (i < p)%nat -> w * a p + v * b p < w * a i + v * b i)).
  { intros w v. eexists. split; [reflexivity|]. pose proof grid_pos as G.
    set (F := fun i => num_lin w (al i) v (be i)).
    assert (HF : forall i, F i = Fin ((fun i => w * a i + v * b i) i)) by (intros i; unfold F; rewrite Ha, Hb; reflexivity).
    destruct (argmin_fin (grid_count - 1) F (fun i => w * a i + v * b i) (fun i _ => HF i)) as [A B].
    pose proof (argmin_le (grid_count - 1) F) as L. split; [lia|]. split; [|exact B]. intros i Hi. apply A. lia. }
  intros j w v H. destruct (M w v) as (p & E & P).
  do 5 (destruct j as [|j]; [cbn [nth_error] in H; injection H as <- <-; eexists; exists p;
    split; [reflexivity|]; split; [unfold weighted_objective, counted_objective; rewrite E; reflexivity|exact P]|]).
  destruct j; discriminate.
Qed.

Lemma unanimous_clear k m scale test train n q cl lo hi x mean var cut : lo < hi ->
  uq_prediction k m scale test train n q cl lo hi x mean var -> (forall j, (j < n)%nat -> cl (q x j) = cl (q x O)) ->
  ~ interval_contains (mean 1%nat) (cut * var) ((lo + hi) / 2).
Proof.
  intros LH [A _] U. destruct (A U) as [-> _]. unfold interval_contains. rewrite Rmult_0_r. intros C.
  pose proof (Rabs_pos (mean 1%nat - (lo + hi) / 2)). lra.
Qed.
