(** Property theorems C109: the simulation samplers. *)
From Coq Require Import Lia Lra Permutation Sorted.
From Flocq Require Import Core.
From Verif Require Import Base BaseFacts NdModel NdFacts RSum HyperModel NamedModel NamedSpec LinAlgModel LinAlgSpec LinAlgFacts
  NoiseModel GPSpec TensorModel TensorSpec KernelModel KernelSpec FlowSpec LibSpec LibProofs WorkSpec WorkProps MpiModel ChunkProofs
  BestSpec BestProofs CalibSpec BenchModel BenchSpec BenchChol BenchProofs SamplerModel SamplerSpec SamplerProofs.
Local Open Scope R_scope.

(** * C109 *)
(** With c = int(n * ratio) between 1 and n: exactly c training rows, one from each of the c blocks of the shuffled rows; the test mask is the
    complement. *)
Theorem C109_split : forall n ratio sfl pick c, shuffle n sfl -> valid_pick pick -> int_mul n ratio = Z.of_nat c -> (1 <= c <= n)%nat ->
  (Z.of_nat n < 2 ^ 53)%Z ->
  exists train, sampler_split n ratio sfl pick = Ok (train, map negb train) /\ List.length train = n /\ List.length (true_positions train) = c /\
    (forall i, (i < c)%nat -> exists r, In r (block sfl (n / c) i) /\ nth r train false = true /\
       forall r', In r' (block sfl (n / c) i) -> nth r' train false = true -> r' = r).
Proof. exact split_ok. Qed.
Print Assumptions C109_split.

(** c is n * ratio up to less than one, and equal to it when that is an integer. *)
Theorem C109_count : forall n ratio, 0 <= INR n * ratio < IZR (2 ^ 53) ->
  IZR (int_mul n ratio) - 1 <= INR n * ratio < IZR (int_mul n ratio) + 1 /\
  forall k, INR n * ratio = IZR k -> (k < 2 ^ 53)%Z -> int_mul n ratio = k.
Proof.
  intros n ratio H. split; [apply int_mul_bounds; exact H|]. intros k E K. apply int_mul_integer; [exact E|].
  rewrite E in H. destruct H as [H _]. apply le_IZR in H. lia.
Qed.
Print Assumptions C109_count.

(** Feature rows: the training and the test features are the rows of the full data set at the marked and the unmarked positions, in order;
    together they are all rows. *)
Theorem C109_features : forall x n ratio sfl pick K cur m v c, dataset x n -> shuffle n sfl -> valid_pick pick -> int_mul n ratio = Z.of_nat c ->
  (1 <= c <= n)%nat -> (Z.of_nat n < 2 ^ 53)%Z ->
  exists s tr te, make_sampler x n ratio sfl pick K cur m v = Ok s /\ List.length tr = c /\ (List.length tr + List.length te = n)%nat /\
    lists_where n (fun i => nth i (sm_train_mask s) false = true) tr /\ lists_where n (fun i => nth i (sm_train_mask s) false = false) te /\
    rows_of_data x (sm_train s) tr /\ rows_of_data x (sm_test s) te /\ Permutation (tr ++ te) (seq 0 n).
Proof.
  intros x n ratio sfl pick K cur m v c D SH VP EC C B.
  destruct (make_ok x n ratio sfl pick K cur m v c D SH VP EC C B) as (s & tr & te & H). decompose [and] H. exists s, tr, te. repeat (split; [assumption|]). assumption.
Qed.
Print Assumptions C109_features.

(** The full data sets: n equally spaced points, and a p-by-p grid whose row i * p + j is (x_j, x_i); no point occurs twice. *)
Theorem C109_grids : forall p,
  (forall i, (i < p)%nat -> feature (linspace01 p) i 0 = INR i / INR (p - 1)) /\
  (forall i j, (i < p)%nat -> (j < p)%nat ->
     feature (grid2 p) (i * p + j) 0 = INR j / INR (p - 1) /\ feature (grid2 p) (i * p + j) 1 = INR i / INR (p - 1)) /\
  dataset (linspace01 p) p /\ dataset (grid2 p) (p * p) /\ feature_count (linspace01 p) = 1%nat /\ feature_count (grid2 p) = 2%nat /\
  distinct_rows (linspace01 p) p (fun i => i) /\ distinct_rows (grid2 p) (p * p) (fun i => i).
Proof.
  intros p. split; [reflexivity|]. split; [apply grid_point|]. destruct (linspace_dataset p), (grid_dataset p).
  repeat (split; [assumption|]). split.
  - destruct (linspace_prior 0 p ltac:(lra)) as [|[_ DR]]; [lra|exact DR].
  - destruct (grid_prior 0 p ltac:(lra)) as [|[_ DR]]; [lra|exact DR].
Qed.
Print Assumptions C109_grids.

(** sample(): test responses have the covariance of the prior; training responses in addition have independent measurement noise with the
    value of the noise parameter as its STANDARD DEVIATION. *)
Definition sampler_moments (gamma : R -> R) (kv : R -> R -> R) (K : libkernel) (cur : nat -> R) (v0 v : R) (s : sampler) (F n c : nat)
  (outcomes : nat) (pi : nat -> R) (tr te : nat -> nat -> R) : Prop :=
  let k := lk_cov gamma kv K F cur [] in
  (forall b b', (b < n - c)%nat -> (b' < n - c)%nat ->
     expect outcomes pi (fun o => te b o * te b' o) = kcov k (sm_test s) (sm_test s) b b' + if (b =? b')%nat then v0 else 0) /\
  (forall b a, (b < n - c)%nat -> (a < c)%nat -> expect outcomes pi (fun o => te b o * tr a o) = kcov k (sm_test s) (sm_train s) b a) /\
  (forall a a', (a < c)%nat -> (a' < c)%nat ->
     expect outcomes pi (fun o => tr a o * tr a' o) = kcov k (sm_train s) (sm_train s) a a' + if (a =? a')%nat then v0 + v * v else 0).

Theorem C109_univariate : forall gamma kv n ratio sfl pick K cur m v c ch outcomes pi w, exact_cholesky ch -> lk_ok K 1 cur [] -> (2 <= n)%nat ->
  shuffle n sfl -> valid_pick pick -> int_mul n ratio = Z.of_nat c -> (1 <= c <= n)%nat -> (Z.of_nat n < 2 ^ 53)%Z -> uniform_noise m ->
  0 <= noise_val m -> 0 <= v -> white outcomes pi (n + c) w ->
  exists s resp, univariate_sampler n ratio sfl pick K cur m v = Ok s /\
    (forall o, sampler_sample gamma kv ch s (w o) (fun a => w o (n + a)%nat) = Ok (resp o) /\
       shape (fst (resp o)) = [c] /\ shape (snd (resp o)) = [(n - c)%nat]) /\
    sampler_moments gamma kv K cur (noise_val m) v s 1 n c outcomes pi (fun a o => at_ (fst (resp o)) [a]) (fun b o => at_ (snd (resp o)) [b]).
Proof.
  intros gamma kv n ratio sfl pick K cur m v c ch outcomes pi w EX OK N2 SH VP EC C B U V0 V W.
  exact (study gamma kv (linspace01 n) n ratio sfl pick K cur m v c ch outcomes pi w EX OK (proj1 (linspace_dataset n)) N2 SH VP EC C B U (linspace_prior _ n V0) V W).
Qed.
Print Assumptions C109_univariate.

Theorem C109_grid : forall gamma kv p ratio sfl pick K cur m v c ch outcomes pi w, exact_cholesky ch -> lk_ok K 2 cur [] -> (2 <= p)%nat ->
  shuffle (p * p) sfl -> valid_pick pick -> int_mul (p * p) ratio = Z.of_nat c -> (1 <= c <= p * p)%nat -> (Z.of_nat (p * p) < 2 ^ 53)%Z ->
  uniform_noise m -> 0 <= noise_val m -> 0 <= v -> white outcomes pi (p * p + c) w ->
  exists s resp, univariate_sampler_2d p ratio sfl pick K cur m v = Ok s /\
    (forall o, sampler_sample gamma kv ch s (w o) (fun a => w o (p * p + a)%nat) = Ok (resp o) /\
       shape (fst (resp o)) = [c] /\ shape (snd (resp o)) = [(p * p - c)%nat]) /\
    sampler_moments gamma kv K cur (noise_val m) v s 2 (p * p) c outcomes pi (fun a o => at_ (fst (resp o)) [a]) (fun b o => at_ (snd (resp o)) [b]).
Proof.
  intros gamma kv p ratio sfl pick K cur m v c ch outcomes pi w EX OK N2 SH VP EC C B U V0 V W.
  assert (OK' : lk_ok K (feature_count (grid2 p)) cur []) by (rewrite (proj2 (grid_dataset p)); exact OK).
  pose proof (study gamma kv (grid2 p) (p * p) ratio sfl pick K cur m v c ch outcomes pi w EX OK' (proj1 (grid_dataset p)) ltac:(nia) SH VP EC C B U (grid_prior _ p V0) V W) as H.
  rewrite (proj2 (grid_dataset p)) in H. exact H.
Qed.
Print Assumptions C109_grid.

(** So a model with noise variance v^2 is the one whose scale estimate and variances are right on average (C107), for noise-free priors. *)
Theorem C109_matched_noise : forall gamma kv K cur v s F n c outcomes pi tr te, sampler_moments gamma kv K cur 0 v s F n c outcomes pi tr te ->
  probability outcomes pi ->
  data_moments outcomes pi te tr (lk_cov gamma kv K F cur []) (HomoscedasticNoise (v * v)) 1 (sm_test s) (sm_train s) (n - c) c.
Proof.
  intros gamma kv K cur v s F n c outcomes pi tr te (M1 & M2 & M3) P. constructor.
  - exact P.
  - intros x Hx. rewrite M1, Nat.eqb_refl by auto. ring.
  - intros x a Hx Ha. rewrite M2 by auto. ring.
  - intros a a' Ha Ha'. rewrite M3 by auto. cbn [noise_at]. destruct (a =? a')%nat; ring.
Qed.
Print Assumptions C109_matched_noise.

(** Finding: the measurement noise object holds a variance everywhere else in the library; here it is used as a standard deviation.  A model
    with the same noise object is not the one the data come from, with any scale. *)
Theorem C109_noise_refuted : forall gamma kv K cur v s F n c outcomes pi tr te, lk_ok K F cur [] -> (1 <= c < n)%nat -> 0 < v -> v <> 1 ->
  sampler_moments gamma kv K cur 0 v s F n c outcomes pi tr te -> forall sc,
  ~ data_moments outcomes pi te tr (lk_cov gamma kv K F cur []) (HomoscedasticNoise v) sc (sm_test s) (sm_train s) (n - c) c.
Proof.
  intros gamma kv K cur v s F n c outcomes pi tr te OK C V V1 (M1 & M2 & M3) sc H. destruct H as [P D1 D2 D3].
  pose proof (M1 0%nat 0%nat ltac:(lia) ltac:(lia)) as A. rewrite (D1 0%nat ltac:(lia)) in A. cbn [Nat.eqb] in A.
  pose proof (M3 0%nat 0%nat ltac:(lia) ltac:(lia)) as B. rewrite (D3 0%nat 0%nat ltac:(lia) ltac:(lia)) in B. cbn [Nat.eqb noise_at] in B.
  assert (KT : kcov (lk_cov gamma kv K F cur []) (sm_test s) (sm_test s) 0 0 = 1) by apply (lk_cov_0 gamma kv K F cur [] (feature (sm_test s)) 0 OK).
  assert (KR : kcov (lk_cov gamma kv K F cur []) (sm_train s) (sm_train s) 0 0 = 1) by apply (lk_cov_0 gamma kv K F cur [] (feature (sm_train s)) 0 OK).
  rewrite KT in A. rewrite KR in B. assert (sc = 1) by lra. subst sc. apply V1. nra.
Qed.
Print Assumptions C109_noise_refuted.

(** Finding: too large a ratio is a ValueError from np.random.choice, too small a one a ZeroDivisionError, a negative one leaves no training row. *)
Theorem C109_bad_ratio_refuted : forall n ratio sfl pick,
  (forall c, int_mul n ratio = Z.of_nat c -> (n < c)%nat -> (Z.of_nat n < 2 ^ 53)%Z -> sampler_split n ratio sfl pick = Err ValueError) /\
  (int_mul n ratio = 0%Z -> sampler_split n ratio sfl pick = Err ZeroDivisionError) /\
  ((int_mul n ratio < 0)%Z ->
     exists train, sampler_split n ratio sfl pick = Ok (train, map negb train) /\ List.length train = n /\ true_positions train = []).
Proof. intros. split; [apply split_too_many|]. split; [apply split_zero|apply split_negative]. Qed.
Print Assumptions C109_bad_ratio_refuted.

(** Finding: the default train_ratio of UnivariateSampler2D is 10, which never works. *)
Theorem C109_default_ratio_refuted : forall p sfl pick K cur m v, (1 <= p)%nat -> (10 * Z.of_nat (p * p) < 2 ^ 53)%Z ->
  univariate_sampler_2d p 10 sfl pick K cur m v = Err ValueError.
Proof.
  intros p sfl pick K cur m v P B. unfold univariate_sampler_2d, make_sampler.
  assert (NP : (1 <= p * p)%nat) by nia.
  rewrite (split_too_many (p * p) 10 sfl pick (10 * (p * p))); [reflexivity| |lia|lia].
  apply int_mul_integer; [|lia]. rewrite Nat2Z.inj_mul, mult_IZR, <- !INR_IZR_INZ. rewrite Rmult_comm. f_equal. cbn [INR]. lra.
Qed.
Print Assumptions C109_default_ratio_refuted.

(** Finding: the seed does not determine the split; the element of each block is drawn from the global generator. *)
Theorem C109_seed_refuted : exists n ratio sfl pick pick' train train', shuffle n sfl /\ valid_pick pick /\ valid_pick pick' /\
  sampler_split n ratio sfl pick = Ok (train, map negb train) /\ sampler_split n ratio sfl pick' = Ok (train', map negb train') /\ train <> train'.
Proof.
  assert (E : int_mul 2 (1 / 2) = 1%Z) by (apply int_mul_integer; [cbn; lra|lia]).
  assert (D : int_true_div 2 1 = 2%Z) by (rewrite int_true_div_exact by lia; reflexivity).
  exists 2%nat, (1 / 2), [0; 1]%nat, (fun _ l => hd 0%nat l), (fun _ l => last l 0%nat), [true; false], [false; true].
  split; [apply Permutation_refl|]. split; [intros i [|a l] H; [congruence|left; reflexivity]|]. split.
  - intros i l H. destruct (exists_last H) as (l' & a & ->). rewrite last_last. apply in_or_app. right; left; reflexivity.
  - unfold sampler_split. rewrite E. cbn [Z.eqb Z.ltb Z.compare]. change (Z.to_nat 1) with 1%nat. rewrite D. split; [reflexivity|]. split; [reflexivity|]. discriminate.
Qed.
Print Assumptions C109_seed_refuted.

(** A negative noise deviation never produces responses: sampling fails, although the constructor accepts it. *)
Theorem C109_negative_noise : forall gamma kv ch x n ratio sfl pick K cur m v s z e,
  make_sampler x n ratio sfl pick K cur m v = Ok s -> v < 0 -> exists err, sampler_sample gamma kv ch s z e = Err err.
Proof.
  intros gamma kv ch x n ratio sfl pick K cur m v s z e E V. unfold make_sampler in E.
  destruct (sampler_split n ratio sfl pick) as [masks|]; cbn [bind] in E; [|discriminate].
  destruct (mask_rows x (snd masks)) as [t1|]; cbn [bind] in E; [|discriminate].
  destruct (mask_rows x (fst masks)) as [t2|]; cbn [bind] in E; [|discriminate]. assert (N : sm_noise s = v) by (inversion E; reflexivity).
  unfold sampler_sample. destruct (benchmark_sample gamma kv ch (sm_gp s) (sm_x s) z) as [y|]; cbn [bind]; [|eauto].
  destruct (mask_rows y (sm_test_mask s)); cbn [bind]; [|eauto]. destruct (mask_rows y (sm_train_mask s)); cbn [bind]; [|eauto].
  destruct (Rlt_dec (sm_noise s) 0); [eauto|lra].
Qed.
Print Assumptions C109_negative_noise.

(** get_interval lists the positions of the values in [lb, ub]; the image passed to the plotting library shows the value of the a-th selected
    grid row (x_j, x_i) at pixel (i, j), and -inf at the others. *)
Theorem C109_interval : forall lb ub n ys, lists_where n (fun i => lb <= ys i <= ub) (get_interval lb ub n ys).
Proof. exact interval_ok. Qed.
Print Assumptions C109_interval.
Theorem C109_image : forall p array mask add_inf, List.length mask = (p * p)%nat -> shape array = [List.length (true_positions mask)] ->
  exists im, make_im p array (Some mask) add_inf = Ok im /\ shape im = [p; p] /\
    (forall a, (a < List.length (true_positions mask))%nat ->
       let r := nth a (true_positions mask) 0%nat in at_ im [(r / p)%nat; (r mod p)%nat] = Some (at_ array [a])) /\
    (forall i j, (i < p)%nat -> (j < p)%nat -> nth (i * p + j) mask false = false -> at_ im [i; j] = if add_inf then None else Some 0).
Proof. exact image_ok. Qed.
Print Assumptions C109_image.

(** The hypotheses of C109_univariate hold: four points, half of them for training, any permutation. *)
Example C109_sat : exists ch K cur m w outcomes pi sfl pick, exact_cholesky ch /\ lk_ok K 1 cur [] /\ shuffle 4 sfl /\ valid_pick pick /\
  int_mul 4 (1 / 2) = 2%Z /\ uniform_noise m /\ 0 <= noise_val m /\ white outcomes pi 6 w /\
  sampler_split 4 (1 / 2) sfl pick = Ok ([false; true; true; false], [true; false; false; true]).
Proof.
  destruct (white_exists 6) as (outcomes & pi & w & W).
  assert (E : int_mul 4 (1 / 2) = 2%Z) by (apply int_mul_integer; [cbn; lra|lia]).
  assert (D : int_true_div 4 2 = 2%Z) by (rewrite int_true_div_exact by lia; reflexivity).
  exists chol, ex80_K, (fun _ => 1), NullNoise, w, outcomes, pi, [2; 0; 3; 1]%nat, (fun i l => match i with O => hd 0%nat l | _ => last l 0%nat end).
  split; [apply chol_exact|]. split. { destruct C80_sat as (knn & dist & w0 & w' & H). decompose [and] H. assumption. }
  split. { change (seq 0 4) with [0; 1; 2; 3]%nat. apply NoDup_Permutation; [repeat constructor; cbn; lia|repeat constructor; cbn; lia|cbn; intros; lia]. }
  split. { intros i l H. destruct i; [destruct l; [congruence|left; reflexivity]|]. destruct (exists_last H) as (l' & a & ->). rewrite last_last. apply in_or_app. right; left; reflexivity. }
  split; [exact E|]. split; [left; reflexivity|]. split; [cbn; unfold noise_val; cbn; lra|]. split; [exact W|].
  unfold sampler_split. rewrite E. cbn [Z.eqb Z.ltb Z.compare]. change (Z.to_nat 2) with 2%nat. rewrite D. reflexivity.
Qed.
