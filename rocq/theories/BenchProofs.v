(** Lemmas for C108. *)
From Coq Require Import Lia Lra.
From Verif Require Import Base BaseFacts NdModel NdFacts RSum HyperModel NamedModel NamedSpec LinAlgModel LinAlgSpec LinAlgFacts Gauss
  NoiseModel GPSpec GPTheorems WellPosedProofs TensorModel TensorSpec TensorProofs KernelModel KernelSpec KernelLemmas FlowSpec PointwiseSpec LibSpec LibProofs
  WorkSpec BestSpec BestProofs BestGram CalibSpec CalibProofs BenchModel BenchSpec BenchChol.
Local Open Scope R_scope.

Lemma bshape_self n f : bshape [n; 1; f]%nat [1; n; f]%nat = Some [n; n; f].
Proof.
  unfold bshape. cbn [rev app brev]. rewrite Nat.eqb_refl.
  destruct (Nat.eqb_spec 1 n); destruct (Nat.eqb_spec n 1); subst; try congruence; cbn; rewrite ?Nat.eqb_refl; reflexivity.
Qed.
Lemma bshape_eye n : bshape [] [n; n] = Some [n; n].
Proof. reflexivity. Qed.
Lemma bshape_sq n : bshape [n; n] [n; n] = Some [n; n].
Proof. unfold bshape. cbn [rev app brev]. rewrite Nat.eqb_refl. reflexivity. Qed.

Lemma pairwise_all data n : dataset data n ->
  exists t, pairwise_tensor data (arange n) = Ok t /\ shape t = [n; n; feature_count data] /\
    forall i j f, (i < n)%nat -> (j < n)%nat -> (f < feature_count data)%nat -> at_ t [i; j; f] = feature data i f - feature data j f.
Proof.
  intros Hd. unfold pairwise_tensor.
  assert (Hn' : forall idx, inb (shape (arange n)) idx -> ~ out_of_range n (at_ (arange n) idx)).
  { intros idx H. apply inb_inv1 in H. destruct H as [x [-> Hx]]. cbn. unfold out_of_range. lia. }
  assert (SL : forall i, (i < n)%nat -> selects n (at_ (arange n) [i]) i) by (intros i Hi; split; [auto|left; reflexivity]).
  destruct Hd as [Sd|[fc Sd]].
  - destruct (take_ok data (arange n) n [] Sd Hn') as [P [EP [SP AP]]].
    rewrite EP. cbn [bind]. unfold ndim at 1. rewrite Sd. cbn [List.length Nat.eqb]. cbn [shape arange app] in SP.
    unfold ndim, newaxis. rewrite SP. cbn [List.length Nat.sub firstn skipn app shape].
    match goal with |- context [bop Rminus ?x ?y] =>
      destruct (bop_spec Rminus x y [n; n; 1%nat] (bshape_self n 1)) as [t [Et [St At]]] end.
    exists t. split; [exact Et|]. unfold feature_count, feature. rewrite Sd. split; [exact St|].
    intros i j f Hi Hj Hf. rewrite At. cbn [shape at_]. assert (f = O) by lia. subst f.
    unfold bidx. cbn [rev app bidx_rev Nat.eqb]. rewrite (bidx1 i n Hi), (bidx1 j n Hj). cbn [rev app firstn skipn].
    pose proof (AP [i] [] i) as A1. pose proof (AP [j] [] j) as A2. cbn [app] in A1, A2. rewrite A1, A2; auto; apply inb1; auto.
  - destruct (take_ok data (arange n) n [fc] Sd Hn') as [P [EP [SP AP]]].
    rewrite EP. cbn [bind]. unfold ndim at 1. rewrite Sd. cbn [List.length Nat.eqb]. cbn [shape arange app] in SP.
    unfold ndim, newaxis. rewrite SP. cbn [List.length Nat.sub Nat.leb firstn skipn app shape].
    match goal with |- context [bop Rminus ?x ?y] =>
      destruct (bop_spec Rminus x y [n; n; fc] (bshape_self n fc)) as [t [Et [St At]]] end.
    exists t. split; [exact Et|]. unfold feature_count, feature. rewrite Sd. split; [exact St|].
    intros i j f Hi Hj Hf. rewrite At. cbn [shape at_].
    unfold bidx. cbn [rev app bidx_rev Nat.eqb]. rewrite (bidx1 i n Hi), (bidx1 j n Hj), (bidx1 f fc Hf). cbn [rev app firstn skipn].
    pose proof (AP [i] [f] i) as A1. pose proof (AP [j] [f] j) as A2. cbn [app] in A1, A2. rewrite A1, A2; auto; apply inb1; auto.
Qed.

Section B.
Variables (gamma : R -> R) (kv : R -> R -> R).
Notation cov K F cur := (lk_cov gamma kv K F cur []).

Lemma bench_kernel_diffs K cur data nn :
  bench_kernel gamma kv K cur data nn = (let! p := pairwise_tensor data nn in lk_call gamma kv K cur [] p).
Proof.
  unfold bench_kernel, lk_call, over_diffs, deform_pairwise, pairwise_distances. destruct K as [d|d sm p]; cbn [lk_def];
  destruct d; destruct (pairwise_tensor data nn); reflexivity.
Qed.

Lemma bench_kernel_ok K cur data n : lk_ok K (feature_count data) cur [] -> dataset data n ->
  exists Kin, bench_kernel gamma kv K cur data (arange n) = Ok Kin /\ shape Kin = [n; n] /\
    forall i j, (i < n)%nat -> (j < n)%nat -> at_ Kin [i; j] = kcov (cov K (feature_count data) cur) data data i j.
Proof.
  intros OK D. destruct (pairwise_all data n D) as (t & E & S1 & V). rewrite bench_kernel_diffs, E. cbn [bind].
  destruct (lk_pointwise gamma kv K (feature_count data) cur [] OK) as [EXT PW].
  destruct (PW t [n; n] S1) as (Kin & EK & SK & VK). exists Kin. split; [exact EK|]. split; [exact SK|].
  intros i j Hi Hj. rewrite VK by (apply inb2; auto). unfold kcov. apply EXT. intros f Hf. cbn [app]. apply V; auto.
Qed.

Lemma bench_cov_ok ch K cur m sc data n : lk_ok K (feature_count data) cur [] -> dataset data n -> uniform_noise m ->
  exists Kn, benchmark_prepare_cholK gamma kv ch (mkBench K cur m sc) data = np_cholesky ch Kn /\ shape Kn = [n; n] /\
    forall i j, (i < n)%nat -> (j < n)%nat -> at_ Kn [i; j] = prior_cov (cov K (feature_count data) cur) (noise_val m) sc data i j.
Proof.
  intros OK D U. destruct (bench_kernel_ok K cur data n OK D) as (Kin & E & SK & V).
  destruct (dataset_shape data n D) as [rest Sd]. unfold benchmark_prepare_cholK. rewrite Sd. cbn [bg_kernel bg_cur bg_noise bg_scale].
  rewrite E. cbn [bind].
  assert (NC : shape (noise_call m) = [] /\ at_ (noise_call m) [] = noise_val m).
  { destruct U as [->|[v ->]]; split; reflexivity. }
  destruct NC as [S0 V0].
  destruct (bop_spec Rmult (noise_call m) (eye n) [n; n]) as (ng & EN & SN & VN). { rewrite S0. apply bshape_eye. }
  rewrite EN. cbn [bind].
  destruct (bop_spec Rplus Kin ng [n; n]) as (Kn & EK & SKn & VKn). { rewrite SK, SN. apply bshape_sq. }
  rewrite EK. cbn [bind]. eexists. split; [reflexivity|]. split; [exact SKn|].
  intros i j Hi Hj. cbn [ndmap at_]. rewrite VKn, SK, SN. unfold bidx. cbn [rev app bidx_rev]. rewrite (bidx1 i n Hi), (bidx1 j n Hj). cbn [rev app].
  rewrite VN, S0, V by auto. unfold bidx. cbn [rev app bidx_rev shape eye]. rewrite (bidx1 i n Hi), (bidx1 j n Hj). cbn [rev app at_ eye].
  rewrite V0. unfold prior_cov. destruct (i =? j)%nat; ring.
Qed.

Lemma prior_sym K cur v sc data n : symmetric n (prior_cov (cov K (feature_count data) cur) v sc data).
Proof. intros i j Hi Hj. unfold prior_cov. rewrite lk_cov_sym, (Nat.eqb_sym j i). reflexivity. Qed.

Lemma prior_pd K cur v sc data n : lk_ok K (feature_count data) cur [] -> 0 < sc -> sound_prior v data n ->
  pd n (prior_cov (cov K (feature_count data) cur) v sc data).
Proof.
  intros OK SC SP. set (k := cov K (feature_count data) cur).
  assert (P : pd n (plus_diag (fun i j => kcov k data data i j) (fun _ => v))).
  { destruct SP as [V|[V DR]].
    - apply plus_diag_pd; auto. apply (lk_cov_psd gamma kv K (feature_count data) cur [] (fun i f => feature data i f) n OK).
    - apply plus_diag_pd'; auto. apply (lk_cov_pd gamma kv K (feature_count data) cur [] (fun i f => feature data i f) n OK). exact DR. }
  apply (KernelPd.pd_ext n (fun i j => sc * plus_diag (fun i j => kcov k data data i j) (fun _ => v) i j)).
  - intros i j Hi Hj. unfold prior_cov, plus_diag. destruct (i =? j)%nat; ring.
  - apply KernelPd.pd_scal; auto.
Qed.

Lemma np_cholesky2 ch A n : shape A = [n; n] ->
  np_cholesky ch A = match ch n (slice2 A []) with
    | Some _ => Ok (mkNd (shape A) (fun idx => match rev idx with
             | j :: i :: rx => match ch n (slice2 A (rev rx)) with Some L => L i j | None => 0 end
             | _ => 0 end))
    | None => Err LinAlgError end.
Proof.
  intros Sh. unfold np_cholesky. rewrite Sh. cbn [rev app]. rewrite Nat.eqb_refl. cbn [nprod fold_right seq forallb unravel rev].
  destruct (ch n (slice2 A [])); reflexivity.
Qed.

Lemma exact_ext ch : exact_cholesky ch -> forall n A B, symmetric n B -> (forall i j, (i < n)%nat -> (j < n)%nat -> A i j = B i j) ->
  (pd n B -> exists L, ch n A = Some L /\ cholesky_factor n B L) /\ (~ pd n B -> ch n A = None).
Proof.
  intros EX n A B SY E. assert (SA : symmetric n A) by (intros i j Hi Hj; rewrite !E by auto; apply SY; auto).
  destruct (EX n A SA) as [I1 I2]. split; intros P.
  - assert (PA : pd n A) by (apply (KernelPd.pd_ext n B); auto; intros; symmetry; auto).
    destruct (proj1 I1 PA) as [L EL]. exists L. split; [exact EL|]. destruct (I2 L EL) as (T & DG & G). split; [exact T|]. split; [exact DG|].
    intros i j Hi Hj. rewrite G, E by auto. reflexivity.
  - destruct (ch n A) as [L|] eqn:EL; [|reflexivity]. exfalso. apply P. apply (KernelPd.pd_ext n A); auto. apply I1. eauto.
Qed.

Lemma factor ch K cur m sc data n : exact_cholesky ch -> lk_ok K (feature_count data) cur [] -> dataset data n -> uniform_noise m ->
  0 < sc -> sound_prior (noise_val m) data n ->
  exists L, benchmark_prepare_cholK gamma kv ch (mkBench K cur m sc) data = Ok L /\ shape L = [n; n] /\
    cholesky_factor n (prior_cov (cov K (feature_count data) cur) (noise_val m) sc data) (fun i j => at_ L [i; j]).
Proof.
  intros EX OK D U SC SP. destruct (bench_cov_ok ch K cur m sc data n OK D U) as (Kn & E & SK & V). rewrite E, (np_cholesky2 ch Kn n SK).
  destruct (proj1 (exact_ext ch EX n (slice2 Kn []) _ (prior_sym K cur (noise_val m) sc data n) V) (prior_pd K cur _ sc data n OK SC SP)) as (L & EL & F).
  rewrite EL. eexists. split; [reflexivity|]. split; [exact SK|]. cbn [at_ rev app]. rewrite EL. exact F.
Qed.

(** A repeated row and no noise: not positive definite. *)
Lemma singular ch K cur m sc data n a b : exact_cholesky ch -> lk_ok K (feature_count data) cur [] -> dataset data n -> uniform_noise m ->
  noise_val m = 0 -> (a < b)%nat -> (b < n)%nat -> (forall f, (f < feature_count data)%nat -> feature data a f = feature data b f) ->
  benchmark_prepare_cholK gamma kv ch (mkBench K cur m sc) data = Err LinAlgError.
Proof.
  intros EX OK D U NZ AB BN EQ. destruct (bench_cov_ok ch K cur m sc data n OK D U) as (Kn & E & SK & V). rewrite E, (np_cholesky2 ch Kn n SK).
  rewrite (proj2 (exact_ext ch EX n (slice2 Kn []) _ (prior_sym K cur (noise_val m) sc data n) V)); [reflexivity|].
  intros P. set (x := fun i => delta i a - delta i b).
  assert (H : 0 < quad n (prior_cov (cov K (feature_count data) cur) (noise_val m) sc data) x).
  { apply P. exists a. split; [lia|]. unfold x. rewrite delta_refl. unfold delta. destruct (Nat.eqb_spec a b); [lia|]. lra. }
  assert (Z : quad n (prior_cov (cov K (feature_count data) cur) (noise_val m) sc data) x = 0); [|lra].
  destruct (lk_pointwise gamma kv K (feature_count data) cur [] OK) as [EXT _].
  unfold quad. rewrite (rsum_ext n _ (fun _ => 0)); [apply rsum_0|]. intros i Hi.
  rewrite (rsum_ext n _ (fun j => delta j a * (x i * prior_cov (cov K (feature_count data) cur) (noise_val m) sc data i j) -
    delta j b * (x i * prior_cov (cov K (feature_count data) cur) (noise_val m) sc data i j))) by (intros; unfold x; ring).
  rewrite rsum_minus. rewrite (rsum_delta n a (fun j => x i * prior_cov (cov K (feature_count data) cur) (noise_val m) sc data i j)) by lia.
  rewrite (rsum_delta n b (fun j => x i * prior_cov (cov K (feature_count data) cur) (noise_val m) sc data i j)) by lia.
  assert (KE : kcov (cov K (feature_count data) cur) data data i a = kcov (cov K (feature_count data) cur) data data i b).
  { unfold kcov. apply EXT. intros f Hf. rewrite EQ by auto. reflexivity. }
  unfold prior_cov. rewrite NZ, KE. destruct (i =? a)%nat, (i =? b)%nat; ring.
Qed.

(** ** Samples *)
Lemma sample_ok ch gp data z L n : benchmark_prepare_cholK gamma kv ch gp data = Ok L -> shape L = [n; n] ->
  exists y, benchmark_sample gamma kv ch gp data z = Ok y /\ shape y = (if (n =? 1)%nat then [] else [n]) /\
    forall i, (i < n)%nat -> response n y i = rsum n (fun k => at_ L [i; k] * z k).
Proof.
  intros E Sh. unfold benchmark_sample. rewrite E. cbn [bind]. unfold benchmark_sample_from_cholK. rewrite Sh, Nat.eqb_refl. cbn [bind].
  eexists. split; [reflexivity|]. unfold squeeze, squeeze_shape, response. cbn [shape filter at_ unsqueeze_idx Nat.eqb negb].
  destruct (Nat.eqb_spec n 1) as [->|N]; cbn [negb]; (split; [reflexivity|]); intros i Hi.
  - replace i with O by lia. reflexivity.
  - reflexivity.
Qed.

Lemma white_cov outcomes pi n (z L : nat -> nat -> R) i j : white outcomes pi n z ->
  expect outcomes pi (fun o => rsum n (fun k => L i k * z o k) * rsum n (fun k => L j k * z o k)) = rsum n (fun k => L i k * L j k).
Proof.
  intros [_ W].
  rewrite (expect_ext outcomes pi _ (fun o => rsum n (fun k => rsum n (fun l => L i k * L j l * (z o k * z o l))))).
  2:{ intros o Ho. rewrite <- rsum_scal_r. apply rsum_ext. intros k Hk. rewrite <- rsum_scal. apply rsum_ext. intros; ring. }
  rewrite expect_rsum. apply rsum_ext. intros k Hk. rewrite expect_rsum.
  rewrite (rsum_ext n _ (fun l => delta k l * (L i k * L j l))).
  2:{ intros l Hl. rewrite expect_scal, W by auto. unfold delta. destruct (k =? l)%nat; ring. }
  apply (rsum_delta_l n k (fun l => L i k * L j l) Hk).
Qed.

Lemma sample_moments ch K cur m sc data n outcomes pi z : exact_cholesky ch -> lk_ok K (feature_count data) cur [] -> dataset data n ->
  uniform_noise m -> 0 < sc -> sound_prior (noise_val m) data n -> white outcomes pi n z ->
  exists y, (forall o, benchmark_sample gamma kv ch (mkBench K cur m sc) data (z o) = Ok (y o) /\ shape (y o) = (if (n =? 1)%nat then [] else [n])) /\
    forall i j, (i < n)%nat -> (j < n)%nat ->
      expect outcomes pi (fun o => response n (y o) i * response n (y o) j) = prior_cov (cov K (feature_count data) cur) (noise_val m) sc data i j.
Proof.
  intros EX OK D U SC SP W. destruct (factor ch K cur m sc data n EX OK D U SC SP) as (L & E & SL & F & DG & G).
  pose proof (fun o => sample_ok ch _ data (z o) L n E SL) as SO.
  exists (fun o => match benchmark_sample gamma kv ch (mkBench K cur m sc) data (z o) with Ok y => y | Err _ => mkNd [] (fun _ => 0) end).
  split.
  - intros o. destruct (SO o) as (y & -> & Sy & _). auto.
  - intros i j Hi Hj. rewrite <- G by auto. rewrite <- (white_cov outcomes pi n z (fun i k => at_ L [i; k]) i j W). apply expect_ext. intros o Ho.
    destruct (SO o) as (y & -> & _ & Vy). rewrite !Vy by auto. reflexivity.
Qed.
End B.

Lemma white_exists n : exists outcomes pi z, white outcomes pi n z.
Proof.
  assert (NP : 0 < INR (S n)) by (apply lt_0_INR; lia).
  set (h := sqrt (INR (S n))). assert (HH : h * h = INR (S n)) by (apply sqrt_sqrt; lra).
  exists (S n), (fun _ => / INR (S n)), (fun o i => h * delta o i). split.
  - split; [rewrite rsum_const; field; lra|]. intros s _. apply Rlt_le, Rinv_0_lt_compat. auto.
  - intros i j Hi Hj. unfold expect.
    rewrite (rsum_ext (S n) _ (fun o => delta o i * delta o j)).
    2:{ intros o Ho. replace (/ INR (S n) * (h * delta o i * (h * delta o j))) with (/ INR (S n) * (h * h) * (delta o i * delta o j)) by ring.
        rewrite HH. field. lra. }
    rewrite (rsum_delta (S n) i (fun o => delta o j)) by lia. unfold delta. reflexivity.
Qed.

(** ** Stacking *)
Lemma stack_ok test train M N : dataset test M -> dataset train N -> ndim test = ndim train -> feature_count test = feature_count train ->
  exists thing, (if (ndim test =? ndim train)%nat && (ndim train =? 1)%nat
                then concat_rows test train
                else concat_rows (atleast_2d test) (atleast_2d train)) = Ok thing /\ stacked thing test train M N.
Proof.
  intros DT DR ND FC. unfold ndim in *. unfold feature_count in FC. destruct DT as [ST|[f ST]], DR as [SR|[f' SR]]; rewrite ST, SR in *; cbn in ND; try discriminate.
  - cbn [List.length Nat.eqb andb]. unfold concat_rows. rewrite ST, SR. cbn [list_eqb]. eexists. split; [reflexivity|].
    unfold stacked, dataset, feature_count, feature. rewrite ST, SR. cbn [shape at_]. split; [left; reflexivity|]. split; [reflexivity|]. split.
    + intros x _ Hx. destruct (Nat.ltb_spec x M); [reflexivity|lia].
    + intros a _ Ha. destruct (Nat.ltb_spec (M + a) M); [lia|]. do 2 f_equal. lia.
  - subst f'. cbn [List.length Nat.eqb andb]. unfold concat_rows, atleast_2d. rewrite ST, SR, ST, SR. cbn [list_eqb]. rewrite Nat.eqb_refl. cbn [andb].
    eexists. split; [reflexivity|]. unfold stacked, dataset, feature_count, feature. rewrite ST, SR. cbn [shape at_].
    split; [right; exists f; reflexivity|]. split; [reflexivity|]. split.
    + intros x g Hx. destruct (Nat.ltb_spec x M); [reflexivity|lia].
    + intros a g Ha. destruct (Nat.ltb_spec (M + a) M); [lia|]. do 2 f_equal. lia.
Qed.

Section Full.
Variables (gamma : R -> R) (kv : R -> R -> R).
Notation cov K F cur := (lk_cov gamma kv K F cur []).

Lemma stacked_kcov K F cur thing test train M N : lk_ok K F cur [] -> stacked thing test train M N ->
  (forall x x', (x < M)%nat -> (x' < M)%nat -> kcov (cov K F cur) thing thing x x' = kcov (cov K F cur) test test x x') /\
  (forall x a, (x < M)%nat -> (a < N)%nat -> kcov (cov K F cur) thing thing x (M + a) = kcov (cov K F cur) test train x a) /\
  (forall a c, (a < N)%nat -> (c < N)%nat -> kcov (cov K F cur) thing thing (M + a) (M + c) = kcov (cov K F cur) train train a c).
Proof.
  intros OK (D & FC & VT & VR). destruct (lk_pointwise gamma kv K F cur [] OK) as [EXT _]. unfold kcov.
  split; [|split]; intros; apply EXT; intros f Hf; rewrite ?VT, ?VR by auto; reflexivity.
Qed.

Lemma full_moments ch K cur m sc test train M N outcomes pi z : exact_cholesky ch -> lk_ok K (feature_count train) cur [] ->
  dataset test M -> dataset train N -> ndim test = ndim train -> feature_count test = feature_count train ->
  uniform_noise m -> 0 < sc -> 0 < noise_val m \/ (0 <= noise_val m /\ distinct_points test train M N) -> white outcomes pi (M + N) z ->
  exists y, (forall o, benchmark_sample_full gamma kv ch (mkBench K cur m sc) test train (z o) = Ok (y o) /\
               shape (y o) = (if (M + N =? 1)%nat then [] else [(M + N)%nat])) /\
    let k := cov K (feature_count train) cur in
    let r := fun i o => response (M + N) (y o) i in
    (forall x x', (x < M)%nat -> (x' < M)%nat ->
       expect outcomes pi (fun o => r x o * r x' o) = sc * (kcov k test test x x' + if (x =? x')%nat then noise_val m else 0)) /\
    (forall x a, (x < M)%nat -> (a < N)%nat -> expect outcomes pi (fun o => r x o * r (M + a)%nat o) = sc * kcov k test train x a) /\
    (forall a c, (a < N)%nat -> (c < N)%nat ->
       expect outcomes pi (fun o => r (M + a)%nat o * r (M + c)%nat o) = sc * (kcov k train train a c + if (a =? c)%nat then noise_val m else 0)).
Proof.
  intros EX OK DT DR ND FC U SC SP W. destruct (stack_ok test train M N DT DR ND FC) as (thing & E & ST).
  pose proof ST as (D & FT & VT & VR). assert (FR : feature_count thing = feature_count train) by congruence.
  assert (SP' : sound_prior (noise_val m) thing (M + N)).
  { destruct SP as [V|[V DP]]; [left; exact V|right; split; [exact V|]]. intros i j Hi Hj NE. rewrite FR.
    assert (PT : forall i f, (i < M + N)%nat -> feature thing i f = pooled test train M i f).
    { intros i0 f Hi0. unfold pooled. destruct (Nat.ltb_spec i0 M); [apply VT; auto|].
      rewrite <- VR by lia. f_equal. lia. }
    destruct (DP i j Hi Hj NE) as (f & Hf & NF). exists f. split; [exact Hf|]. rewrite !PT by auto. exact NF. }
  rewrite <- FR in OK. destruct (sample_moments gamma kv ch K cur m sc thing (M + N) outcomes pi z EX OK D U SC SP' W) as (y & Y1 & Y2).
  exists y. split.
  - intros o. unfold benchmark_sample_full. rewrite E. cbn [bind]. apply Y1.
  - cbv zeta. rewrite FR in *. destruct (stacked_kcov K (feature_count train) cur thing test train M N OK ST) as (K1 & K2 & K3).
    split; [|split].
    + intros x x' Hx Hx'. rewrite Y2 by lia. unfold prior_cov. rewrite K1 by auto. reflexivity.
    + intros x a Hx Ha. rewrite Y2 by lia. unfold prior_cov. rewrite K2 by auto. destruct (Nat.eqb_spec x (M + a)); [lia|ring].
    + intros a c Ha Hc. rewrite Y2 by lia. unfold prior_cov. rewrite K3 by auto.
      destruct (Nat.eqb_spec (M + a) (M + c)), (Nat.eqb_spec a c); try lia; reflexivity.
Qed.

(** Noise-free samples are the random functions of C107. *)
Lemma full_data_moments ch K cur m sc test train M N outcomes pi z : exact_cholesky ch -> lk_ok K (feature_count train) cur [] ->
  dataset test M -> dataset train N -> ndim test = ndim train -> feature_count test = feature_count train ->
  uniform_noise m -> noise_val m = 0 -> 0 < sc -> distinct_points test train M N -> white outcomes pi (M + N) z ->
  exists y, (forall o, benchmark_sample_full gamma kv ch (mkBench K cur m sc) test train (z o) = Ok (y o)) /\
    data_moments outcomes pi (fun x o => response (M + N) (y o) x) (fun a o => response (M + N) (y o) (M + a))
      (cov K (feature_count train) cur) m sc test train M N.
Proof.
  intros EX OK DT DR ND FC U NZ SC DP W.
  destruct (full_moments ch K cur m sc test train M N outcomes pi z EX OK DT DR ND FC U SC) as (y & Y1 & Y2 & Y3 & Y4);
    [right; split; [lra|exact DP]|exact W|]. exists y. split; [intros o; apply Y1|]. constructor.
  - exact (proj1 W).
  - intros x Hx. rewrite (Y2 x x Hx Hx), Nat.eqb_refl, NZ. ring.
  - exact Y3.
  - exact Y4.
Qed.
End Full.

(** ** The dense scale estimate *)
Section Scale.
Variable ls : lsolver.
Hypothesis EXL : exact_solver ls.

Lemma analytic_ok Kin y n : (0 < n)%nat -> shape Kin = [n; n] -> shape y = [n] \/ shape y = [n; 1%nat] -> nonsingular n (fun i j => at_ Kin [i; j]) ->
  exists s c, get_analytic_scale ls Kin y = Ok s /\ shape s = [] /\
    solves n (fun i j => at_ Kin [i; j]) c (column y) /\ at_ s [] = dot n (column y) c / INR n.
Proof.
  intros Hn SK SY NS. unfold get_analytic_scale.
  assert (NN : INR n <> 0) by (apply not_0_INR; lia).
  destruct SY as [SY|SY]; rewrite SY, SK, Nat.eqb_refl; (destruct (Nat.eqb_spec n 0); [lia|]); cbn [negb].
  - set (B := newaxis 1 y). assert (SB : shape B = [] ++ [n; 1%nat]) by (unfold B, newaxis; cbn [shape]; rewrite SY; reflexivity).
    destruct (np_solve_ok ls Kin B [] n 1 SK SB) as [X EX].
    { intros x Hx. apply inb_inv_nil in Hx. subst x. apply (proj1 (proj2 EXL n 1%nat (slice2 Kin []) (slice2 B [])) NS). }
    destruct (np_solve_inv ls Kin B X [] n 1 SK SB EX) as [SX HX]. destruct (HX [] (Forall2_nil _)) as (Y & EY & VY).
    rewrite EX. cbn [bind]. eexists. exists (fun i => at_ X [i; 0%nat]). split; [reflexivity|]. split; [reflexivity|].
    pose proof (proj1 EXL n 1%nat _ _ Y EY 0%nat ltac:(lia)) as SO. cbn beta in SO. split.
    + intros i Hi. rewrite (rsum_ext n _ (fun j => slice2 Kin [] i j * Y j 0%nat)) by (intros j Hj; pose proof (VY j 0%nat) as V; cbn [app] in V; rewrite V; reflexivity).
      rewrite SO by auto. unfold slice2, B, newaxis, column. cbn [at_ app firstn skipn]. rewrite SY. reflexivity.
    + cbn [at_]. unfold dot, column. rewrite SY. unfold Rdiv. ring.
  - assert (SB : shape y = [] ++ [n; 1%nat]) by exact SY.
    destruct (np_solve_ok ls Kin y [] n 1 SK SB) as [X EX].
    { intros x Hx. apply inb_inv_nil in Hx. subst x. apply (proj1 (proj2 EXL n 1%nat (slice2 Kin []) (slice2 y [])) NS). }
    destruct (np_solve_inv ls Kin y X [] n 1 SK SB EX) as [SX HX]. destruct (HX [] (Forall2_nil _)) as (Y & EY & VY).
    rewrite EX. cbn [bind].
    destruct (np_matmul_inv (swapaxes_last y) X [] 1 n 1) as (P & EP & SP & VP).
    { unfold swapaxes_last. cbn [shape]. rewrite SY. reflexivity. } { exact SX. }
    rewrite EP. cbn [bind]. eexists. exists (fun i => at_ X [i; 0%nat]). split; [reflexivity|]. cbn [app] in SP.
    split; [unfold squeeze, ndmap; cbn [shape]; rewrite SP; reflexivity|].
    pose proof (proj1 EXL n 1%nat _ _ Y EY 0%nat ltac:(lia)) as SO. cbn beta in SO. split.
    + intros i Hi. rewrite (rsum_ext n _ (fun j => slice2 Kin [] i j * Y j 0%nat)) by (intros j Hj; pose proof (VY j 0%nat) as V; cbn [app] in V; rewrite V; reflexivity).
      rewrite SO by auto. unfold slice2, column. cbn [app]. rewrite SY. reflexivity.
    + unfold squeeze, ndmap. cbn [at_ shape]. rewrite SP. cbn [unsqueeze_idx Nat.eqb]. pose proof (VP [] 0%nat 0%nat) as V. cbn [app] in V. rewrite V.
      unfold dot, column. rewrite SY. unfold swapaxes_last, swap_last. cbn [at_ rev app]. unfold Rdiv. rewrite Rmult_1_l. apply Rmult_comm.
Qed.

Lemma analytic_unbiased Kin y n outcomes pi sc : (0 < n)%nat -> shape Kin = [n; n] -> (forall o, (o < outcomes)%nat -> shape (y o) = [n] \/ shape (y o) = [n; 1%nat]) ->
  nonsingular n (fun i j => at_ Kin [i; j]) ->
  (forall i j, (i < n)%nat -> (j < n)%nat -> expect outcomes pi (fun o => column (y o) i * column (y o) j) = sc * at_ Kin [i; j]) ->
  exists h, (forall o, (o < outcomes)%nat -> exists s, get_analytic_scale ls Kin (y o) = Ok s /\ shape s = [] /\ at_ s [] = h o) /\
    expect outcomes pi h = sc.
Proof.
  intros Hn SK SY NS MO. assert (NN : INR n <> 0) by (apply not_0_INR; lia).
  set (h := fun o => match get_analytic_scale ls Kin (y o) with Ok s => at_ s [] | Err _ => 0 end).
  exists h. split.
  - intros o Ho. destruct (analytic_ok Kin (y o) n Hn SK (SY o Ho) NS) as (s & c & E & S0 & SO & V). exists s.
    split; [exact E|]. split; [exact S0|]. unfold h. rewrite E. reflexivity.
  - set (c := fun o i => match gauss n 1%nat (fun i j => at_ Kin [i; j]) (fun i _ => column (y o) i) with Some X => X i 0%nat | None => 0 end).
    assert (SO : forall o, (o < outcomes)%nat -> solves n (fun i j => at_ Kin [i; j]) (c o) (fun i => column (y o) i)).
    { intros o Ho. unfold c. destruct (proj1 (proj2 gauss_exact n 1%nat (fun i j => at_ Kin [i; j]) (fun i _ => column (y o) i)) NS) as [X EX].
      rewrite EX. exact (proj1 gauss_exact n 1%nat _ _ X EX 0%nat ltac:(lia)). }
    rewrite (expect_ext outcomes pi h (fun o => / INR n * dot n (column (y o)) (c o))).
    2:{ intros o Ho. unfold h. destruct (analytic_ok Kin (y o) n Hn SK (SY o Ho) NS) as (s & c' & E & S0 & SO' & V). rewrite E, V.
        assert (DE : dot n (column (y o)) c' = dot n (column (y o)) (c o)).
        { apply rsum_ext. intros i Hi. f_equal. apply (solves_unique n _ c' (c o) _ NS SO' (SO o Ho)); auto. }
        rewrite DE. unfold Rdiv. ring. }
    rewrite expect_scal. pose proof (expect_quad outcomes pi n (fun i j => at_ Kin [i; j]) (fun i o => column (y o) i) c sc NS SO MO) as Q.
    change (expect outcomes pi (fun o => dot n (column (y o)) (c o)) = sc * INR n) in Q. rewrite Q. field. auto.
Qed.
End Scale.
