(** Multivariate regression, classification and the do_* drivers, end to end. *)
From Coq Require Import Lia Lra.
From Verif Require Import Base BaseFacts NdModel NdFacts RSum LinAlgModel LinAlgSpec LinAlgFacts
  GPModel NoiseModel MuyGPSModel MuyGPSProofs GPSpec GPTheorems TensorModel TensorSpec TensorProofs
  NeighborsModel NeighborsSpec NeighborsProofs FlowModel FlowSpec FlowProofs FlowLemmas PointwiseSpec LibSpec LibProofs
  MultiModel DriverModel ClassifyModel ClassifySpec ClassifyProofs ClassifyLemmas BackendModel BackendProofs DeepModel DeepProofs WorkModel WorkSpec WorkProofs.
Local Open Scope R_scope.

Section L.
Variables (gamma : R -> R) (kv : R -> R -> R).
Variable ls : lsolver.
Hypothesis EX : exact_solver ls.
Variable knn : dict nnval -> list point -> point -> nat -> list (nat * R).
Variable hnsw : nnval -> list point -> point -> nat -> list (nat * R).
Variable dist : dict nnval -> point -> point -> R.
Hypothesis Hsk : sklearn_ok knn dist.

(** A library model: its MuyGPS state and its kernel with current hyperparameters. *)
Definition lib_model (g : gp) (K : libkernel) (cur : nat -> R) : mmodel := mkMm g (lk_call gamma kv K cur []).

Lemma regress_any_multi_nbr en method kw w (ms : list (gp * libkernel * (nat -> R))) test train targets F N M n r :
  lower method = "exact"%string -> euclidean_kw kw -> nn_init en (rows_of train) n method kw = Ok w -> (0 < n <= N /\ 0 < M)%nat -> n <> 1%nat ->
  shape test = [M; F] -> shape train = [N; F] -> shape targets = [N; r] -> ms <> [] -> (List.length ms <= r)%nat ->
  (forall g K cur, In (g, K, cur) ms -> lk_ok K F cur [] /\ shape (gp_Kout g) = [] /\ at_ (gp_Kout g) [] = 1 /\
     noise_fits (gp_noise g) M n /\ sound_noise (gp_noise g) train N M n) ->
  exists mean var,
  let q := nbr knn hnsw w test in
    regress_any ls knn hnsw (Multivariate (map (fun e => lib_model (fst (fst e)) (snd (fst e)) (snd e)) ms)) test train w targets = Ok (mean, var) /\
    shape mean = [M; r] /\ shape var = [M; List.length ms] /\
    (forall x, (x < M)%nat -> nearest_rows test train N x n (q x)) /\
    forall i g K cur x, nth_error ms i = Some (g, K, cur) -> (x < M)%nat ->
      kriging n (nbr_matrix (lk_cov gamma kv K F cur []) (gp_noise g) train q x)
        (fun j => kcov (lk_cov gamma kv K F cur []) test train x (q x j))
        (fun j => at_ targets [q x j; i]) (at_ mean [x; i]) /\
      exists wv, solves n (nbr_matrix (lk_cov gamma kv K F cur []) (gp_noise g) train q x) wv
          (fun j => kcov (lk_cov gamma kv K F cur []) test train x (q x j)) /\
        at_ var [x; i] = gp_scale g * (gp_var_scale g *
          (1 - dot n wv (fun j => kcov (lk_cov gamma kv K F cur []) test train x (q x j)))).
Proof.
  intros Hm He Hi Hn N1 St Sx HT NE Hlen Hms.
  assert (D1 : dataset test M) by (right; eauto). assert (D2 : dataset train N) by (right; eauto).
  assert (FC1 : feature_count test = F) by (unfold feature_count; rewrite St; reflexivity).
  assert (FC2 : feature_count train = F) by (unfold feature_count; rewrite Sx; reflexivity).
  destruct (lookup_rows knn hnsw dist Hsk en method kw w test train N M n Hm He Hi Hn D1 D2) as (I & D & EG & CW & IM & NR); [congruence|].
  set (q := nbr knn hnsw w test) in *.
  destruct (target_tensor targets (index_array n I) N M n q r HT IM) as (T & ET & ST & HTv).
  set (k := fun i => match nth_error ms i with Some (_, K, cur) => lk_cov gamma kv K F cur [] | None => fun _ => 0 end).
  set (mk := fun e : gp * libkernel * (nat -> R) => lib_model (fst (fst e)) (snd (fst e)) (snd e)).
  assert (NTH : forall i m, nth_error (map mk ms) i = Some m -> exists g K cur, nth_error ms i = Some (g, K, cur) /\
     m = lib_model g K cur /\ k i = lk_cov gamma kv K F cur []).
  { intros i m E. rewrite nth_error_map in E. destruct (nth_error ms i) as [[[g K] cur]|] eqn:En; [|discriminate].
    cbn in E. injection E as <-. exists g, K, cur. split; [auto|]. split; [reflexivity|]. unfold k. rewrite En. reflexivity. }
  destruct (torch_multi ls (map mk ms) F k (arange M) (index_array n I) test train targets T N M M n q (fun x => x) r)
    as (cw & pw & p & v & Ecw & Epw & Ep & Ev & Sp & Sv & Hp & Hv); auto.
  - rewrite map_length. auto.
  - intros i m E. destruct (NTH i m E) as (g & K & cur & En & -> & ->).
    destruct (Hms g K cur (nth_error_In _ _ En)) as (OK & SK & K1 & NF & SN). cbn [lib_model mm_kernel mm_gp].
    split; [apply lk_pointwise; auto|]. split; [auto|]. split; [auto|].
    rewrite <- FC2 in OK |- *. apply well_posed_ns; auto. apply (sound_well_posed _ test train N); auto.
  - rewrite to_crosswise_eq in Ecw by (unfold ndim; rewrite ?St; reflexivity).
    rewrite to_pairwise_eq in Epw by (unfold ndim; rewrite ?Sx; cbn; auto).
    exists p, v. fold q. cbv zeta. split.
    { unfold regress_any. rewrite (row_count_ok _ _ D1). cbn [bind]. rewrite EG. cbn [bind fst made_regress_from_indices].
      rewrite CW. unfold mm_regress_from_indices. fold mk. destruct (map mk ms) as [|m0 ms0] eqn:Em.
      - destruct ms; [congruence|discriminate].
      - rewrite Ecw. cbn [bind]. rewrite Epw. cbn [bind]. rewrite ET. cbn [bind]. rewrite Ep. cbn [bind]. rewrite Ev. reflexivity. }
    split; [exact Sp|]. split; [rewrite Sv, map_length; reflexivity|]. split; [exact NR|].
    intros i g K cur x En Hx.
    assert (E : nth_error (map mk ms) i = Some (lib_model g K cur)) by (rewrite nth_error_map, En; reflexivity).
    assert (Ek : k i = lk_cov gamma kv K F cur []) by (unfold k; rewrite En; reflexivity).
    destruct (Hms g K cur (nth_error_In _ _ En)) as (_ & _ & K1 & _).
    pose proof (Hp i _ x E Hx) as A. pose proof (Hv i _ x E Hx) as B. rewrite Ek in A, B. cbn [lib_model mm_gp] in A, B. rewrite K1 in B.
    split; [exact A|exact B].
Qed.

Lemma regress_any_multi en method kw w (ms : list (gp * libkernel * (nat -> R))) test train targets F N M n r :
  lower method = "exact"%string -> euclidean_kw kw -> nn_init en (rows_of train) n method kw = Ok w -> (0 < n <= N /\ 0 < M)%nat -> n <> 1%nat ->
  shape test = [M; F] -> shape train = [N; F] -> shape targets = [N; r] -> ms <> [] -> (List.length ms <= r)%nat ->
  (forall g K cur, In (g, K, cur) ms -> lk_ok K F cur [] /\ shape (gp_Kout g) = [] /\ at_ (gp_Kout g) [] = 1 /\
     noise_fits (gp_noise g) M n /\ sound_noise (gp_noise g) train N M n) ->
  exists mean var q,
    regress_any ls knn hnsw (Multivariate (map (fun e => lib_model (fst (fst e)) (snd (fst e)) (snd e)) ms)) test train w targets = Ok (mean, var) /\
    shape mean = [M; r] /\ shape var = [M; List.length ms] /\
    (forall x, (x < M)%nat -> nearest_rows test train N x n (q x)) /\
    forall i g K cur x, nth_error ms i = Some (g, K, cur) -> (x < M)%nat ->
      kriging n (nbr_matrix (lk_cov gamma kv K F cur []) (gp_noise g) train q x)
        (fun j => kcov (lk_cov gamma kv K F cur []) test train x (q x j))
        (fun j => at_ targets [q x j; i]) (at_ mean [x; i]) /\
      exists wv, solves n (nbr_matrix (lk_cov gamma kv K F cur []) (gp_noise g) train q x) wv
          (fun j => kcov (lk_cov gamma kv K F cur []) test train x (q x j)) /\
        at_ var [x; i] = gp_scale g * (gp_var_scale g *
          (1 - dot n wv (fun j => kcov (lk_cov gamma kv K F cur []) test train x (q x j)))).
Proof.
  intros Hm He Hi Hn N1 St Sx HT NE Hlen Hms.
  destruct (regress_any_multi_nbr en method kw w ms test train targets F N M n r Hm He Hi Hn N1 St Sx HT NE Hlen Hms) as (mean & var & H).
  exists mean, var, (nbr knn hnsw w test). exact H.
Qed.

(** Two-class classification. *)
Lemma work_classify en method kw w g K cur test train labels N M n lo hi cl :
  lower method = "exact"%string -> euclidean_kw kw -> nn_init en (rows_of train) n method kw = Ok w -> (0 < n <= N /\ 0 < M)%nat -> n <> 2%nat ->
  dataset test M -> dataset train N -> ndim test = ndim train -> feature_count test = feature_count train ->
  lk_ok K (feature_count train) cur [] -> uniform_noise (gp_noise g) -> sound_noise (gp_noise g) train N M n ->
  one_hot labels N 2 lo hi cl ->
  exists out q, work_classify_any ls knn hnsw (Univariate (lib_model g K cur)) test train w labels = Ok out /\
    shape out = [M; 2%nat] /\
    forall x c, (x < M)%nat -> (c < 2)%nat ->
      nearest_rows test train N x n (q x) /\
      ((forall j, (j < n)%nat -> cl (q x j) = cl (q x O)) -> at_ out [x; c] = if (c =? cl (q x O))%nat then hi else lo) /\
      ((exists j, (j < n)%nat /\ cl (q x j) <> cl (q x O)) ->
         kriging n (nbr_matrix (lk_cov gamma kv K (feature_count train) cur []) (gp_noise g) train q x)
           (fun j => kcov (lk_cov gamma kv K (feature_count train) cur []) test train x (q x j))
           (fun j => if (c =? cl (q x j))%nat then hi else lo) (at_ out [x; c])).
Proof.
  intros Hm He Hi Hn N2 D1 D2 ND FC OK UN SN OH.
  destruct (lookup_rows knn hnsw dist Hsk en method kw w test train N M n Hm He Hi Hn D1 D2 FC) as (I & D & EG & CW & IM & NR).
  destruct n as [|n]; [lia|].
  destruct (classify_two_gp ls g (feature_count train) (lk_call gamma kv K cur []) (lk_cov gamma kv K (feature_count train) cur [])
     test train labels (index_array (S n) I) N M n (nbr knn hnsw w test) lo hi cl) as (out & Eo & So & Vo); auto; try lia.
  - apply lk_pointwise; auto.
  - apply well_posed_ns; auto. apply (sound_well_posed _ test train N); auto.
  - exists out, (nbr knn hnsw w test). split.
    { unfold work_classify_any. rewrite EG. cbn [bind fst]. rewrite CW. exact Eo. }
    split; [exact So|]. intros x c Hx Hc. split; [auto|]. apply Vo; auto.
Qed.

(** What do_regress and do_classify return. *)
Section D.
Variable spec : Type.
Variable make : spec -> result mmodel.
Variable fixed : mmodel -> result bool.
Variable batch : nn_wrapper -> result unit.
Variable opt : nn_wrapper -> option nat -> mmodel -> result mmodel.
Variable scale : nn_wrapper -> mmodel -> result mmodel.
Variable mscale : nn_wrapper -> list mmodel -> result (list mmodel).

Lemma do_regress_inv en test train targets n method kw k m w p :
  do_regress ls knn hnsw spec make fixed batch opt scale mscale en test train targets n method kw k = Ok (m, w, p) ->
  nn_init en (rows_of train) n method kw = Ok w /\
  decide_and_make_regressor spec mmodel make fixed (Ok tt) (batch w) (opt w) (scale w) (mscale w) (shape targets) k = Ok m /\
  regress_any ls knn hnsw m test train w targets = Ok p.
Proof.
  unfold do_regress. destruct (nn_init en (rows_of train) n method kw) as [w'|e] eqn:Ew; cbn [rmap bind].
  - destruct (decide_and_make_regressor spec mmodel make fixed (Ok tt) (batch w') (fun i m => opt w' i m) (fun m => scale w' m) (fun ms => mscale w' ms) (shape targets) k)
      as [m'|e] eqn:Em; cbn [bind]; [|discriminate].
    destruct (regress_any ls knn hnsw m' test train w' targets) as [p'|e] eqn:Ep; cbn [bind]; [|discriminate].
    intros H. injection H as <- <- <-. auto.
  - intros H. exfalso. revert H.
    match goal with |- (let! _ := ?d in _) = _ -> _ => destruct d as [x|x] end; discriminate.
Qed.
Lemma do_classify_inv en test train labels n method kw k m w p :
  do_classify ls knn hnsw spec make fixed batch opt mscale en test train labels n method kw k = Ok (m, w, p) ->
  nn_init en (rows_of train) n method kw = Ok w /\
  decide_and_make_classifier spec mmodel make fixed (Ok tt) (batch w) (opt w) (mscale w) (shape labels) k = Ok m /\
  work_classify_any ls knn hnsw m test train w labels = Ok p.
Proof.
  unfold do_classify. destruct (nn_init en (rows_of train) n method kw) as [w'|e] eqn:Ew; cbn [rmap bind].
  - destruct (decide_and_make_classifier spec mmodel make fixed (Ok tt) (batch w') (fun i m => opt w' i m) (fun ms => mscale w' ms) (shape labels) k)
      as [m'|e] eqn:Em; cbn [bind]; [|discriminate].
    destruct (work_classify_any ls knn hnsw m' test train w' labels) as [p'|e] eqn:Ep; cbn [bind]; [|discriminate].
    intros H. injection H as <- <- <-. auto.
  - intros H. exfalso. revert H.
    match goal with |- (let! _ := ?d in _) = _ -> _ => destruct d as [x|x] end; discriminate.
Qed.
End D.
End L.
