(** Lemmas for C117: fast prediction. *)
From Coq Require Import Lia Lra Classical.
From Verif Require Import Base BaseFacts NdModel NdFacts RSum HyperModel NamedModel LinAlgModel LinAlgSpec LinAlgFacts
  GPModel NoiseModel GPProofs MuyGPSModel GPSpec MuyGPSProofs GPTheorems FastProofs TensorModel TensorSpec TensorProofs KernelModel KernelSpec
  NeighborsModel NeighborsSpec NeighborsProofs FlowModel FlowSpec FlowProofs FlowLemmas PointwiseSpec LibSpec LibProofs
  MultiModel DriverModel WorkModel WorkSpec WorkProofs WorkLemmas TrainSpec TrainProofs3 FastWorkModel FastWorkProofs CoincideSpec CoincideProofs.
Local Open Scope R_scope.

(** With two zeros among the distances the second nearest is at distance zero. *)
Lemma second_zero train N a b n p : nearest_rows train train N a n p -> (1 < n)%nat -> (a < N)%nat -> (b < N)%nat -> a <> b ->
  same_row train train a b -> row_dist train train a (p 1%nat) = 0.
Proof.
  intros (B & I & SS & OUT) Hn Ha Hb Hab SR.
  assert (ZA : row_dist train train a a = 0) by (apply row_dist_refl; intros f _; reflexivity).
  assert (ZB : row_dist train train a b = 0) by (apply row_dist_refl; exact SR).
  pose proof (row_dist_nonneg train train a (p 1%nat)) as P.
  assert (ST : exists z, (z < N)%nat /\ row_dist train train a z = 0 /\ z <> p O).
  { destruct (Nat.eq_dec a (p O)) as [E|E]; [exists b|exists a]; split; auto; split; auto. congruence. }
  destruct ST as (z & Hz & Zz & NZ).
  destruct (classic (exists j, (j < n)%nat /\ p j = z)) as [(j & Hj & Ej)|NO].
  - assert (J1 : (1 <= j)%nat) by (destruct j; [congruence|lia]). specialize (SS 1%nat j J1 Hj). rewrite Ej, Zz in SS. lra.
  - specialize (OUT z Hz). assert (Q : forall j, (j < n)%nat -> p j <> z) by (intros j Hj E; apply NO; eauto).
    specialize (OUT Q 1%nat Hn). rewrite Zz in OUT. lra.
Qed.

Section Q.
Variable knn : dict nnval -> list point -> point -> nat -> list (nat * R).
Variable hnsw : nnval -> list point -> point -> nat -> list (nat * R).
Variable dist : dict nnval -> point -> point -> R.
Hypothesis Hsk : sklearn_ok knn dist.

(** The neighbours of all training rows, without distinctness: the first of n + 1 rows is dropped. *)
Lemma all_rows_any en method kw w train N n :
  lower method = "exact"%string -> euclidean_kw kw -> nn_init en (rows_of train) n method kw = Ok w -> (n + 1 <= N)%nat ->
  dataset train N ->
  exists I D p, get_batch_nns knn hnsw w (seq 0 N) = Ok (I, D) /\ nn_count w = n /\
    index_matrix (index_array n I) N n N (fun c j => p c (S j)) /\
    forall c, nearest_rows train train N c (n + 1) (p c).
Proof.
  intros Hm He Hi Hn Dr.
  destruct (nn_init_exact _ _ _ _ _ _ Hm Hi) as [rows [Er Ew]]. rewrite (rows_of_ok _ _ Dr) in Er. injection Er as <-.
  assert (CW : nn_count w = n) by (rewrite Ew; reflexivity).
  assert (TW : nn_train w = map (row_pt train) (seq 0 N)) by (rewrite Ew; reflexivity).
  assert (LT : List.length (nn_train w) = N) by (rewrite TW, map_length, seq_length; reflexivity).
  assert (NR : forall c, nearest_rows train train N c (n + 1) (fun j => nth j (map fst (query_row knn hnsw w (row_pt train c) (n + 1))) O)).
  { intros c. apply (nearest_rows_of train train N c (n + 1)); [lia|reflexivity|]. rewrite Ew.
    apply (query_row_euclid knn hnsw dist Hsk); auto. rewrite map_length, seq_length. auto. }
  do 2 eexists. exists (fun c j => nth j (map fst (query_row knn hnsw w (row_pt train c) (n + 1))) O).
  split.
  { apply get_batch_nns_rows; [lia| |].
    - intros E. apply (f_equal (@List.length nat)) in E. rewrite seq_length in E. cbn in E. lia.
    - intros i Hin. apply in_seq in Hin. lia. }
  split; [exact CW|]. split; [|exact NR].
  split; [cbn [index_array shape]; rewrite map_length, seq_length; reflexivity|].
  intros x j Hx Hj. split.
  - cbn [index_array at_]. f_equal. rewrite CW, TW.
    set (Fx := fun i => tl (map fst (query_row knn hnsw w (nth i (map (row_pt train) (seq 0 N)) []) (n + 1)))).
    rewrite (nth_indep _ [] (Fx O)) by (rewrite map_length, seq_length; auto).
    rewrite (map_nth Fx), seq_nth by auto. unfold Fx. rewrite Nat.add_0_l, row_pts_nth by auto.
    destruct (map fst (query_row knn hnsw w (row_pt train x) (n + 1))) as [|y l]; [destruct j; reflexivity|reflexivity].
  - apply (proj1 (NR x)). lia.
Qed.
End Q.

Section W.
Variables (gamma : R -> R) (kv : R -> R -> R).
Variable ls : lsolver.
Hypothesis EX : exact_solver ls.
Variable knn : dict nnval -> list point -> point -> nat -> list (nat * R).
Variable hnsw : nnval -> list point -> point -> nat -> list (nat * R).
Variable dist : dict nnval -> point -> point -> R.
Hypothesis Hsk : sklearn_ok knn dist.

Lemma coefficients_fail g K cur train targets nn N w q r : lk_ok K (feature_count train) cur [] -> dataset train N ->
  shape targets = [N; r] -> index_matrix nn N w N q -> noise_fits (gp_noise g) N w ->
  (exists c, (c < N)%nat /\ coincident (gp_noise g) train w c (q c)) ->
  fast_coefficients_from ls g (lk_call gamma kv K cur []) nn train targets = Err LinAlgError.
Proof.
  intros OK D HT IM NF (c & Hc & CO).
  set (k := lk_cov gamma kv K (feature_count train) cur []).
  assert (PK : pointwise_kernel (feature_count train) (lk_call gamma kv K cur []) k) by (apply lk_pointwise; auto).
  destruct (target_tensor targets nn N N w q r HT IM) as (T & ET & ST & HTv).
  destruct (pairwise_kernel (feature_count train) (lk_call gamma kv K cur []) k train nn N N w q PK D eq_refl IM)
    as (pw & Kin & Epw & EK & SK & HKv).
  destruct (perturb3 (gp_noise g) None Kin N w NF SK) as (Kp & EP & SP & HP).
  unfold fast_coefficients_from. rewrite ET; cbn [bind]. rewrite Epw; cbn [bind]. rewrite EK; cbn [bind].
  unfold gp_fast_coefficients. rewrite EP. cbn [bind].
  unfold fast_precompute, ndim. rewrite ST. cbn [List.length Nat.eqb].
  rewrite (np_solve_singular ls Kp T [N] w r [c]); auto.
  - apply inb1; auto.
  - destruct (ls w r (slice2 Kp [c]) (slice2 T [c])) as [X|] eqn:E; [exfalso|reflexivity].
    apply (coincident_singular gamma kv K (feature_count train) cur [] (gp_noise g) train w q c OK eq_refl CO).
    apply (nonsingular_ext _ (slice2 Kp [c])).
    + intros i j Hi Hj. unfold slice2, nbr_matrix, plus_diag. cbn [app]. rewrite HP by auto. rewrite HKv by auto. reflexivity.
    + apply (proj2 EX w r (slice2 Kp [c]) (slice2 T [c])). eauto.
Qed.

Lemma fast_any_fails en method kw w g K cur test train targets F N n r a b :
  lower method = "exact"%string -> euclidean_kw kw -> nn_init en (rows_of train) n method kw = Ok w -> (1 < n)%nat -> (n + 1 <= N)%nat ->
  shape train = [N; F] -> shape targets = [N; r] -> lk_ok K F cur [] -> noise_fits (gp_noise g) N n ->
  (forall x i, noise_at (gp_noise g) None x i = 0) ->
  (a < N)%nat -> (b < N)%nat -> a <> b -> same_row train train a b ->
  work_fast_any ls knn hnsw (Univariate (lib_model gamma kv g K cur)) test train w targets = Err LinAlgError.
Proof.
  intros Hm He Hi Hn1 Hn Sx HT OK NF NZ Ha Hb Hab SR.
  assert (D2 : dataset train N) by (right; eauto).
  assert (FC2 : feature_count train = F) by (unfold feature_count; rewrite Sx; reflexivity).
  destruct (all_rows_any knn hnsw dist Hsk en method kw w train N n Hm He Hi Hn D2) as (I & D & p & EB & CW & IB & NR).
  assert (En : S (n - 1) = n) by lia.
  pose proof (update_matrix (index_array n I) N (n - 1) N (fun c j => p c (S j))) as UM. rewrite En in UM. specialize (UM IB ltac:(lia)).
  unfold work_fast_any, make_fast. rewrite Sx. rewrite EB. cbn [bind fst snd]. rewrite CW. cbn [lib_model mm_gp mm_kernel].
  rewrite (coefficients_fail g K cur train targets _ N n (with_self (fun c j => p c (S j))) r); auto; [rewrite FC2; exact OK|].
  exists a. split; [exact Ha|]. exists O, 1%nat. split; [lia|]. split; [lia|]. split; [lia|]. split; [apply NZ|]. split; [apply NZ|].
  intros f Hf. cbn [with_self]. pose proof (second_zero train N a b (n + 1) (p a) (NR a) ltac:(lia) Ha Hb Hab SR) as Z.
  exact (row_dist_zero train train a (p a 1%nat) Z f Hf).
Qed.
End W.
