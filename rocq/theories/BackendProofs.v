(** The jax and torch implementations against the numpy one: tensors and prediction. *)
From Coq Require Import Lia Lra.
From Verif Require Import Base BaseFacts NdModel NdFacts RSum LinAlgModel LinAlgSpec LinAlgFacts GPModel GPSpec GPProofs
  NoiseModel TensorModel TensorSpec TensorProofs CongProofs MemProofs MemLemmas BackendModel.
Local Open Scope R_scope.

(** ** Tensors *)
Lemma clamp_selects n i k : selects n i k -> clamp_index n i = k.
Proof.
  intros [Hk [E|E]]; unfold clamp_index; destruct (Z.ltb_spec i 0); lia.
Qed.

Lemma clamp_lt n i : (0 < n)%nat -> (clamp_index n i < n)%nat.
Proof. intros Hn. unfold clamp_index. destruct (i <? 0)%Z; lia. Qed.

Lemma newaxis_cong {A} k (t t' : nd A) : (k <= ndim t)%nat -> nd_eq t t' -> nd_eq (newaxis k t) (newaxis k t').
Proof.
  intros Hk [HS H]. unfold newaxis. split; cbn [shape at_]; [rewrite HS; reflexivity|].
  intros idx Hi. apply H. apply inb_app_inv in Hi as (a & r & -> & Ha & Hr).
  apply inb_inv_cons in Hr as (z & c & -> & Hz & Hc).
  pose proof (inb_length _ _ Ha) as La. rewrite firstn_length_le in La by exact Hk.
  rewrite <- La at 1 2. rewrite firstn_app_len. rewrite skipn_app.
  rewrite skipn_all2 by lia.
  cbn [app skipn]. rewrite <- (firstn_skipn k (shape t)). apply inb_app; [exact Ha|].
  replace (S (List.length a) - List.length a)%nat with 1%nat by lia. exact Hc.
Qed.

Lemma jx_take_agree {A} (data : nd A) ix n rest : shape data = n :: rest -> (0 < n)%nat ->
  (forall idx, inb (shape ix) idx -> ~ out_of_range n (at_ ix idx)) ->
  exists t t', take data ix = Ok t /\ jx_take data ix = Ok t' /\ nd_eq t t' /\ shape t = shape ix ++ rest.
Proof.
  intros S Hn Hr. destruct (take_ok data ix n rest S Hr) as (t & Et & St & At).
  unfold jx_take. rewrite S. destruct n as [|n]; [lia|].
  eexists; eexists. split; [exact Et|]. split; [reflexivity|]. split; [|exact St].
  split; [exact St|]. intros idx Hi. rewrite St in Hi. apply inb_app_inv in Hi as (i1 & i2 & -> & H1 & H2).
  destruct (in_range_selects _ _ (Hr _ H1)) as [k Hk]. rewrite (At _ _ _ H1 Hk). cbn [at_].
  rewrite <- (inb_length _ _ H1). rewrite firstn_app_len, skipn_app_len.
  rewrite (clamp_selects _ _ _ Hk). reflexivity.
Qed.

Lemma to_crosswise_eq data nn_data ix nn : ndim data = 2%nat -> ndim ix = 1%nat ->
  to_crosswise_tensor data nn_data ix nn = crosswise_tensor data nn_data ix nn.
Proof.
  unfold to_crosswise_tensor, crosswise_tensor, to_take, ndim. intros Hd Hi.
  destruct (take data ix) as [l|] eqn:E; [|reflexivity]. cbn [bind].
  destruct (take nn_data nn) as [p|]; [|reflexivity]. cbn [bind]. rewrite Hd. cbn [Nat.eqb].
  assert (List.length (shape l) = 2%nat) as L.
  { unfold take in E. destruct (shape data) as [|n rest] eqn:Sd; [discriminate|].
    destruct (forallb _ _); [|discriminate]. injection E as <-. cbn [shape]. rewrite app_length, Hi. cbn in Hd. lia. }
  unfold bk_crosswise_differences, ndim. rewrite L. reflexivity.
Qed.

Lemma to_pairwise_eq data nn : ndim data = 2%nat -> (ndim nn = 1 \/ ndim nn = 2)%nat ->
  to_pairwise_tensor data nn = pairwise_tensor data nn.
Proof.
  unfold to_pairwise_tensor, pairwise_tensor, to_take, ndim. intros Hd Hi.
  destruct (take data nn) as [l|] eqn:E; [|reflexivity]. cbn [bind]. rewrite Hd. cbn [Nat.eqb].
  assert (List.length (shape l) = List.length (shape nn) + 1)%nat as L.
  { unfold take in E. destruct (shape data) as [|n rest] eqn:Sd; [discriminate|].
    destruct (forallb _ _); [|discriminate]. injection E as <-. cbn [shape]. rewrite app_length. cbn in Hd. lia. }
  unfold bk_pairwise_differences, ndim. rewrite L. destruct Hi as [-> | ->]; reflexivity.
Qed.

Lemma jx_crosswise_agree data nn_data ix nn n f n' f' : shape data = [n; f] -> shape nn_data = [n'; f'] ->
  (0 < n)%nat -> (0 < n')%nat -> ndim ix = 1%nat ->
  (forall idx, inb (shape ix) idx -> ~ out_of_range n (at_ ix idx)) ->
  (forall idx, inb (shape nn) idx -> ~ out_of_range n' (at_ nn idx)) ->
  same_outcome (jx_crosswise_tensor data nn_data ix nn) (crosswise_tensor data nn_data ix nn).
Proof.
  intros Sd Sn Hn Hn' Hix Hr Hr'. rewrite <- to_crosswise_eq; [|unfold ndim; rewrite Sd; reflexivity|exact Hix].
  unfold jx_crosswise_tensor, to_crosswise_tensor, to_take.
  destruct (jx_take_agree data ix n [f] Sd Hn Hr) as (t & t' & -> & -> & Ht & St). cbn [bind].
  destruct (jx_take_agree nn_data nn n' [f'] Sn Hn' Hr') as (p & p' & -> & -> & Hp & Sp). cbn [bind].
  unfold bk_crosswise_differences, ndim. pose proof (proj1 Ht) as Sht. rewrite <- Sht.
  assert (List.length (shape t) = 2%nat) as L. { rewrite St, app_length. unfold ndim in Hix. cbn. lia. }
  rewrite L. cbn [Nat.ltb Nat.leb]. apply bop_cong2; [apply newaxis_cong|apply nd_eq_sym; exact Hp].
  - unfold ndim. rewrite <- Sht, L. lia.
  - apply nd_eq_sym; exact Ht.
Qed.

Lemma jx_pairwise_agree data nn n f : shape data = [n; f] -> (0 < n)%nat -> (ndim nn = 1 \/ ndim nn = 2)%nat ->
  (forall idx, inb (shape nn) idx -> ~ out_of_range n (at_ nn idx)) ->
  same_outcome (jx_pairwise_tensor data nn) (pairwise_tensor data nn).
Proof.
  intros Sd Hn Hnn Hr. rewrite <- to_pairwise_eq; [|unfold ndim; rewrite Sd; reflexivity|exact Hnn].
  unfold jx_pairwise_tensor, to_pairwise_tensor, to_take.
  destruct (jx_take_agree data nn n [f] Sd Hn Hr) as (t & t' & -> & -> & Ht & St). cbn [bind].
  pose proof (proj1 Ht) as Sht. apply nd_eq_sym in Ht.
  assert (L : ndim t = (ndim nn + 1)%nat). { unfold ndim. rewrite St, app_length. reflexivity. }
  assert (L' : ndim t' = ndim t). { unfold ndim. rewrite Sht. reflexivity. }
  unfold bk_pairwise_differences. rewrite L', L. destruct Hnn as [E | E]; rewrite E in *; cbn [Nat.add];
    apply bop_cong2; apply newaxis_cong; try exact Ht; lia.
Qed.

(** jax never raises on an index, whatever its value: it reads the first or the last row. *)
Lemma jx_take_total {A} (data : nd A) ix n rest : shape data = n :: rest -> (0 < n)%nat ->
  exists t, jx_take data ix = Ok t /\ shape t = shape ix ++ rest /\
    forall i idx, inb (shape ix) i ->
      ((at_ ix i < - Z.of_nat n)%Z -> at_ t (i ++ idx) = at_ data (O :: idx)) /\
      ((Z.of_nat n <= at_ ix i)%Z -> at_ t (i ++ idx) = at_ data ((n - 1)%nat :: idx)).
Proof.
  intros S Hn. unfold jx_take. rewrite S. destruct n as [|n]; [lia|].
  eexists. split; [reflexivity|]. split; [reflexivity|]. intros i idx Hi. cbn [at_].
  rewrite <- (inb_length _ _ Hi). rewrite firstn_app_len, skipn_app_len.
  split; intros H; do 2 f_equal; unfold clamp_index; destruct (Z.ltb_spec (at_ ix i) 0); lia.
Qed.

(** One-axis features. *)
Lemma bk_crosswise_1d data nn_data ix nn n n' : shape data = [n] -> shape nn_data = n' -> ndim ix = 1%nat ->
  forall l p, take data ix = Ok l -> take nn_data nn = Ok p ->
  to_crosswise_tensor data nn_data ix nn = Err IndexError.
Proof.
  intros Sd _ Hix l p El Ep. unfold to_crosswise_tensor, to_take. rewrite El, Ep. cbn [bind].
  unfold take in El. rewrite Sd in El. destruct (forallb _ _); [|discriminate]. injection El as <-.
  unfold bk_crosswise_differences, ndim. cbn [shape]. rewrite app_nil_r. unfold ndim in Hix. rewrite Hix. reflexivity.
Qed.

Lemma jx_crosswise_1d data nn_data ix nn n n' rest : shape data = [n] -> shape nn_data = n' :: rest ->
  (0 < n)%nat -> (0 < n')%nat -> ndim ix = 1%nat -> jx_crosswise_tensor data nn_data ix nn = Err IndexError.
Proof.
  intros Sd Sn Hn Hn' Hix. unfold jx_crosswise_tensor, jx_take. rewrite Sd, Sn. destruct n; [lia|]. destruct n'; [lia|].
  cbn [bind]. unfold bk_crosswise_differences, ndim. cbn [shape]. rewrite app_nil_r. unfold ndim in Hix. rewrite Hix. reflexivity.
Qed.

Lemma bshape_bbk b k : bshape [b; 1%nat; k] [1%nat; b; k] = Some [b; b; k].
Proof.
  unfold bshape. cbn [rev app brev]. rewrite Nat.eqb_refl.
  destruct (Nat.eqb_spec b 1); subst; cbn; rewrite ?Nat.eqb_refl; [reflexivity|].
  destruct b as [|[|b]]; cbn; rewrite ?Nat.eqb_refl; try lia; reflexivity.
Qed.

Lemma to_pairwise_1d data nn n b k : shape data = [n] -> shape nn = [b; k] ->
  (forall idx, inb (shape nn) idx -> ~ out_of_range n (at_ nn idx)) ->
  exists t, to_pairwise_tensor data nn = Ok t /\ shape t = [b; b; k].
Proof.
  intros Sd Sn Hr. unfold to_pairwise_tensor, to_take.
  destruct (take_ok data nn n [] Sd Hr) as (p & -> & Sp & _). cbn [bind]. rewrite Sn in Sp. cbn [app] in Sp.
  unfold bk_pairwise_differences, ndim. rewrite Sp. cbn [List.length]. unfold newaxis. rewrite Sp. cbn [firstn skipn app].
  match goal with |- context [bop Rminus ?x ?y] =>
    destruct (bop_spec Rminus x y [b; b; k] (bshape_bbk b k)) as (t & Et & St & _) end.
  eauto.
Qed.

Lemma jx_pairwise_1d data nn n b k : shape data = [n] -> shape nn = [b; k] -> (0 < n)%nat ->
  exists t, jx_pairwise_tensor data nn = Ok t /\ shape t = [b; b; k].
Proof.
  intros Sd Sn Hn. unfold jx_pairwise_tensor.
  destruct (jx_take_total data nn n [] Sd Hn) as (p & -> & Sp & _). cbn [bind]. rewrite Sn in Sp. cbn [app] in Sp.
  unfold bk_pairwise_differences, ndim. rewrite Sp. cbn [List.length]. unfold newaxis. rewrite Sp. cbn [firstn skipn app].
  match goal with |- context [bop Rminus ?x ?y] =>
    destruct (bop_spec Rminus x y [b; b; k] (bshape_bbk b k)) as (t & Et & St & _) end.
  eauto.
Qed.

(** ** Prediction *)
Lemma reshape_same {A} (t : nd A) sh : shape t = sh -> exists t', reshape t sh = Ok t' /\ nd_eq t' t.
Proof.
  intros <-. destruct (reshape_ok t (shape t) eq_refl) as [t' E]. exists t'. split; [exact E|].
  split; [apply (reshape_shape _ _ _ E)|]. intros idx Hi. rewrite (reshape_shape _ _ _ E) in Hi.
  apply (reshape_at _ _ _ _ _ E); auto.
Qed.

Lemma reshape_expand {A} (t : nd A) b n : shape t = [b; n] ->
  exists t', reshape t [b; n; 1%nat] = Ok t' /\ nd_eq t' (expand_last t).
Proof.
  intros S. destruct (reshape_ok t [b; n; 1%nat]) as [t' E].
  { rewrite S. rewrite !nprod_cons, nprod0. lia. }
  exists t'. split; [exact E|]. pose proof (reshape_shape _ _ _ E) as S'.
  split; [rewrite S'; cbn [shape expand_last]; rewrite S; reflexivity|].
  intros idx Hi. rewrite S' in Hi. apply inb_inv3 in Hi as (x & i & j & -> & Hx & Hi & Hj).
  unfold expand_last. cbn [at_]. change (removelast [x; i; j]) with [x; i].
  apply (reshape_at _ _ _ _ _ E); [rewrite S; apply inb2; auto|]. rewrite S.
  cbn [ravel]. rewrite !nprod_cons, nprod0. lia.
Qed.

Lemma swapaxes_cong t t' : nd_eq t t' -> nd_eq (swapaxes_last t) (swapaxes_last t').
Proof.
  intros [HS H]. split; cbn [shape swapaxes_last at_]; [rewrite HS; reflexivity|].
  intros idx Hi. apply H. unfold swap_last in *. rewrite HS in *.
  destruct (rev (shape t')) as [|q [|p r]] eqn:E.
  - assert (shape t' = []) by (rewrite <- (rev_involutive (shape t')), E; reflexivity). rewrite H0 in Hi.
    apply inb_inv_nil in Hi as ->. cbn. rewrite H0. exact inb_nil.
  - assert (Es : shape t' = [q]) by (rewrite <- (rev_involutive (shape t')), E; reflexivity). rewrite Es in *.
    apply inb_inv1 in Hi as (i & -> & Hi). cbn. apply inb1; auto.
  - apply rev2_inv in E. rewrite E in *. clear E.
    cbn [rev] in Hi. rewrite <- app_assoc in Hi. cbn [app] in Hi.
    apply inb_app_inv in Hi as (x & ij & -> & Hx & Hij). apply inb_inv2 in Hij as (i & j & -> & Hi & Hj).
    rewrite rev_app2. cbn [rev]. rewrite rev_involutive, <- app_assoc. cbn [app]. apply inb_app; auto. apply inb2; auto.
Qed.

Section Pred.
Variable ls : lsolver.
Hypothesis Hls : exact_solver ls.

Lemma no_coinc_nil n : no_coincidence [] [n].
Proof. split; cbn; [lia|intros; lia]. Qed.
Lemma no_coinc_one r n : r <> n -> no_coincidence [r] [n].
Proof. intros H; split; cbn; [lia|]. intros k Hk. destruct k; [exact H|lia]. Qed.

Lemma jx_mean_flat_agree Kin Kcross T b n : shape Kin = [b; n; n] -> shape Kcross = [b; n] -> shape T = [b; n] ->
  same_outcome (jx_posterior_mean ls Kin Kcross T) (posterior_mean ls Kin Kcross T).
Proof.
  intros SK SC ST.
  rewrite (posterior_mean_unfold ls Kin Kcross T [b] [n] [] []); auto; [|discriminate|apply no_coinc_nil].
  unfold jx_posterior_mean, ndim. rewrite SK, ST. cbn [List.length Nat.eqb].
  unfold jx_mean_univariate. rewrite SK. rewrite !nprod_cons, !nprod0, !Nat.mul_1_r. cbn [app].
  destruct (reshape_expand T b n ST) as (T' & -> & HT). cbn [bind].
  destruct (reshape_same Kin _ SK) as (K' & -> & HK). cbn [bind].
  destruct (reshape_expand Kcross b n SC) as (C' & -> & HC). cbn [bind].
  apply so_bind; [apply solve_cong; auto using nd_eq_sym|]. intros F F' HF.
  apply so_bind; [apply matmul_cong; [apply swapaxes_cong; exact HF|apply nd_eq_sym; exact HT]|]. intros r r' Hr.
  apply reshape_cong; exact Hr.
Qed.

Lemma jx_mean_resp_agree Kin Kcross T b n r : shape Kin = [b; n; n] -> shape Kcross = [b; n] -> shape T = [b; n; r] ->
  r <> n -> same_outcome (jx_posterior_mean ls Kin Kcross T) (posterior_mean ls Kin Kcross T).
Proof.
  intros SK SC ST Hr.
  rewrite (posterior_mean_unfold ls Kin Kcross T [b] [n] [] [r]); auto; [|discriminate|apply no_coinc_one; auto].
  unfold jx_posterior_mean, ndim. rewrite SK, ST. cbn [List.length Nat.eqb].
  unfold jx_mean_diagonal. rewrite SK, ST. rewrite !nprod_cons, !nprod0, !Nat.mul_1_r. cbn [app last].
  destruct (reshape_same T _ ST) as (T' & -> & HT). cbn [bind].
  destruct (reshape_same Kin _ SK) as (K' & -> & HK). cbn [bind].
  destruct (reshape_expand Kcross b n SC) as (C' & -> & HC). cbn [bind].
  apply so_bind; [apply solve_cong; auto using nd_eq_sym|]. intros F F' HF.
  apply so_bind; [apply matmul_cong; [apply swapaxes_cong; exact HF|apply nd_eq_sym; exact HT]|]. intros t t' Ht.
  apply reshape_cong; exact Ht.
Qed.

(** Any number of responses, also nn_count of them. *)
Lemma jx_mean_resp_spec Kin Kcross T b n r : shape Kin = [b; n; n] -> shape Kcross = [b; n] -> shape T = [b; n; r] ->
  (forall x, (x < b)%nat -> nonsingular n (rowmat Kin x)) ->
  exists t, jx_posterior_mean ls Kin Kcross T = Ok t /\ shape t = [b; r] /\
    forall x s, (x < b)%nat -> (s < r)%nat ->
      kriging n (rowmat Kin x) (rowvec Kcross x) (fun j => at_ T [x; j; s]) (at_ t [x; s]).
Proof.
  intros SK SC ST Hns. unfold jx_posterior_mean, ndim. rewrite SK, ST. cbn [List.length Nat.eqb].
  unfold jx_mean_diagonal. rewrite SK, ST. cbn [last].
  assert (SE : shape (expand_last Kcross) = [b] ++ [n; 1%nat]). { cbn [shape expand_last]. rewrite SC. reflexivity. }
  assert (SK' : shape Kin = [b] ++ [n; n]) by exact SK.
  destruct (np_solve_ok ls Kin (expand_last Kcross) [b] n 1 SK' SE) as [F EF].
  { intros x Hx. apply inb_inv1 in Hx as (x0 & -> & Hx). apply (proj1 (proj2 Hls n 1%nat _ (slice2 (expand_last Kcross) [x0]))).
    apply (Hns x0 Hx). }
  rewrite EF. cbn [bind].
  destruct (np_solve_inv ls _ _ _ _ _ _ SK' SE EF) as [SF HF].
  assert (SsF : shape (swapaxes_last F) = [b] ++ [1%nat; n]). { cbn [shape swapaxes_last]. rewrite SF. apply swap_last_app2. }
  assert (ST' : shape T = [b] ++ [n; r]) by exact ST.
  destruct (np_matmul_inv _ _ _ _ _ _ SsF ST') as (P & EP & SP & HP). rewrite EP. cbn [bind].
  destruct (reshape_ok P [b; r]) as [t Et]. { rewrite SP. cbn [app]. rewrite !nprod_cons, nprod0. lia. }
  exists t. split; [exact Et|]. split; [apply (reshape_shape _ _ _ Et)|].
  intros x s Hx Hs. destruct (HF [x] (inb1 _ _ Hx)) as (Y & EY & HY).
  exists (fun a => Y a O). split.
  - pose proof (proj1 Hls _ _ _ _ _ EY O ltac:(lia)) as H. intros a Ha. exact (H a Ha).
  - rewrite (reshape_at P t [b; r] [x; O; s] [x; s] Et).
    + change [x; O; s] with ([x] ++ [O; s]). rewrite HP. unfold dot. apply rsum_ext. intros l Hl. cbn [at_ swapaxes_last].
      rewrite swap_last_app2, HY. reflexivity.
    + rewrite SP. apply inb3; lia.
    + rewrite SP. cbn [app ravel]. rewrite !nprod_cons, nprod0. lia.
Qed.

Lemma jx_variance_agree Kin Kcross Kout b n : shape Kin = [b; n; n] -> shape Kcross = [b; n] ->
  same_outcome (jx_diagonal_variance ls Kin Kcross Kout) (diagonal_variance ls Kin Kcross Kout 1).
Proof.
  intros SK SC. change 1%nat with (List.length [b]).
  rewrite (diagonal_variance_unfold ls Kin Kcross Kout [b] [n] []); auto.
  unfold jx_diagonal_variance. rewrite SK. rewrite !nprod_cons, !nprod0, !Nat.mul_1_r. cbn [app].
  destruct (reshape_same Kin _ SK) as (K' & -> & HK). cbn [bind].
  destruct (reshape_expand Kcross b n SC) as (C' & -> & HC). cbn [bind].
  apply so_bind; [apply solve_cong; auto using nd_eq_sym|]. intros F F' HF.
  apply so_bind; [apply matmul_cong; [apply swapaxes_cong; exact HF|apply nd_eq_sym; exact HC]|]. intros t t' Ht.
  apply so_bind; [apply reshape_cong; exact Ht|]. intros u u' Hu. apply bop_cong2; [apply nd_eq_refl|exact Hu].
Qed.

Lemma jx_variance5_agree Kin Kcross Kout b m n o : shape Kin = [b; m; n; m; n] -> shape Kcross = [b; m; n; o] ->
  jx_diagonal_variance ls Kin Kcross Kout = diagonal_variance ls Kin Kcross Kout 1.
Proof.
  intros SK SC. change 1%nat with (List.length [b]).
  rewrite (diagonal_variance_unfold ls Kin Kcross Kout [b] [m; n] [o]); auto.
  unfold jx_diagonal_variance. rewrite SK, SC. rewrite !nprod_cons, !nprod0, !Nat.mul_1_r. cbn [app last]. reflexivity.
Qed.

(** The five-axis mean multiplies a stack of matrices with a matrix of targets. *)
Lemma jx_mean5_raises Kin Kcross T b m n o : shape Kin = [b; m; n; m; n] -> shape Kcross = [b; m; n; o] -> shape T = [b; m; n] ->
  (forall x, (x < b)%nat -> nonsingular (m * n) (flat5 Kin n x)) ->
  b <> (m * n)%nat -> (0 < n)%nat -> jx_posterior_mean ls Kin Kcross T = Err TypeError.
Proof.
  intros SK SC ST Hns Hne Hn. unfold jx_posterior_mean, ndim. rewrite SK. cbn [List.length Nat.eqb].
  unfold jx_mean_multivariate. rewrite SK, SC. cbn [last].
  destruct (reshape_ok Kin [b; m * n; m * n]%nat) as [K EK]. { rewrite SK, !nprod_cons, nprod0. lia. }
  destruct (reshape_ok Kcross [b; m * n; o]%nat) as [C EC]. { rewrite SC, !nprod_cons, nprod0. lia. }
  destruct (reshape_ok T [b; m * n]%nat) as [t ET]. { rewrite ST, !nprod_cons, nprod0. lia. }
  rewrite EK, EC, ET. cbn [bind].
  pose proof (reshape_shape _ _ _ EK) as SK'. pose proof (reshape_shape _ _ _ EC) as SC'. pose proof (reshape_shape _ _ _ ET) as ST'.
  change [b; (m * n)%nat; (m * n)%nat] with ([b] ++ [(m * n)%nat; (m * n)%nat]) in SK'.
  change [b; (m * n)%nat; o] with ([b] ++ [(m * n)%nat; o]) in SC'.
  destruct (np_solve_ok ls K C [b] (m * n) o SK' SC') as [F EF].
  { intros x Hx. apply inb_inv1 in Hx as (x0 & -> & Hx). apply (proj1 (proj2 Hls (m * n)%nat o _ (slice2 C [x0]))).
    apply (proj1 (nonsingular_cong (m * n) (flat5 Kin n x0) (slice2 K [x0])
      ltac:(intros i j Hi Hj; unfold flat5, slice2; symmetry;
        assert (SKi : shape Kin = [b] ++ [m; n] ++ [m; n]) by exact SK;
        assert (EK2 : reshape Kin ([b] ++ [nprod [m; n]; nprod [m; n]]) = Ok K) by
          (rewrite !nprod_cons, nprod0, Nat.mul_1_r; exact EK);
        rewrite (reshape_flat2 Kin K [b] [m; n] [m; n] [x0] i j SKi EK2) by
          (try apply inb1; rewrite ?nprod_cons, ?nprod0; lia);
        cbn [unravel app]; rewrite !nprod_cons, nprod0, !Nat.mul_1_r, !Nat.div_1_r; reflexivity))).
    apply Hns; auto. }
  rewrite EF. cbn [bind].
  destruct (np_solve_inv ls _ _ _ _ _ _ SK' SC' EF) as [SF _].
  unfold matmul_stack_matrix. cbn [shape swapaxes_last]. rewrite SF, swap_last_app2. cbn [app]. rewrite ST'.
  destruct (Nat.eqb_spec (m * n) b); [lia|reflexivity].
Qed.

Lemma flat5_slice Kin K b m n x0 : shape Kin = [b; m; n; m; n] -> reshape Kin [b; m * n; m * n]%nat = Ok K -> (x0 < b)%nat ->
  forall i j, (i < m * n)%nat -> (j < m * n)%nat -> flat5 Kin n x0 i j = slice2 K [x0] i j.
Proof.
  intros SK EK Hx i j Hi Hj. unfold flat5, slice2. symmetry.
  assert (SKi : shape Kin = [b] ++ [m; n] ++ [m; n]) by exact SK.
  assert (EK2 : reshape Kin ([b] ++ [nprod [m; n]; nprod [m; n]]) = Ok K) by (rewrite !nprod_cons, nprod0, Nat.mul_1_r; exact EK).
  rewrite (reshape_flat2 Kin K [b] [m; n] [m; n] [x0] i j SKi EK2) by (try apply inb1; rewrite ?nprod_cons, ?nprod0; lia).
  cbn [unravel app]. rewrite !nprod_cons, nprod0, !Nat.mul_1_r, !Nat.div_1_r. reflexivity.
Qed.
Lemma jx_mean5_coincidence Kin Kcross T b m n o : shape Kin = [b; m; n; m; n] -> shape Kcross = [b; m; n; o] -> shape T = [b; m; n] ->
  (forall x, (x < b)%nat -> nonsingular (m * n) (flat5 Kin n x)) -> b = (m * n)%nat -> (0 < b)%nat -> (0 < o)%nat ->
  ((1 < b)%nat -> jx_posterior_mean ls Kin Kcross T = Err ValueError) /\
  (b = 1%nat -> exists t, jx_posterior_mean ls Kin Kcross T = Ok t /\ shape t = [1%nat; o] /\
     forall s, (s < o)%nat -> at_ t [O; s] = at_ Kcross [O; O; O; s] / at_ Kin [O; O; O; O; O] * at_ T [O; O; O]).
Proof.
  intros SK SC ST Hns Eb Hb Ho. unfold jx_posterior_mean, ndim. rewrite SK. cbn [List.length Nat.eqb].
  unfold jx_mean_multivariate. rewrite SK, SC. cbn [last].
  destruct (reshape_ok Kin [b; m * n; m * n]%nat) as [K EK]. { rewrite SK, !nprod_cons, nprod0. lia. }
  destruct (reshape_ok Kcross [b; m * n; o]%nat) as [C EC]. { rewrite SC, !nprod_cons, nprod0. lia. }
  destruct (reshape_ok T [b; m * n]%nat) as [t ET]. { rewrite ST, !nprod_cons, nprod0. lia. }
  rewrite EK, EC, ET. cbn [bind].
  pose proof (reshape_shape _ _ _ EK) as SK'. pose proof (reshape_shape _ _ _ EC) as SC'. pose proof (reshape_shape _ _ _ ET) as ST'.
  change [b; (m * n)%nat; (m * n)%nat] with ([b] ++ [(m * n)%nat; (m * n)%nat]) in SK'.
  change [b; (m * n)%nat; o] with ([b] ++ [(m * n)%nat; o]) in SC'.
  destruct (np_solve_ok ls K C [b] (m * n) o SK' SC') as [F EF].
  { intros x Hx. apply inb_inv1 in Hx as (x0 & -> & Hx). apply (proj1 (proj2 Hls (m * n)%nat o _ (slice2 C [x0]))).
    apply (proj1 (nonsingular_cong (m * n) (flat5 Kin n x0) (slice2 K [x0]) (flat5_slice Kin K b m n x0 SK EK Hx))).
    apply Hns; auto. }
  rewrite EF. cbn [bind].
  destruct (np_solve_inv ls _ _ _ _ _ _ SK' SC' EF) as [SF HF].
  unfold matmul_stack_matrix. cbn [shape swapaxes_last]. rewrite SF, swap_last_app2. cbn [app]. rewrite ST'.
  destruct (Nat.eqb_spec (m * n) b) as [_|NE]; [|lia]. cbn [bind]. split.
  - intros B1. unfold reshape. cbn [shape]. rewrite !nprod_cons, nprod0.
    destruct (Nat.eqb_spec (b * (o * 1)) (b * (o * (m * n * 1)))%nat) as [E|]; [|reflexivity].
    rewrite <- Eb in E. exfalso. nia.
  - intros B1. assert (m = 1%nat /\ n = 1%nat) as [-> ->] by (destruct m as [|[|m]]; destruct n as [|[|n]]; nia). subst b.
    change (1 * 1)%nat with 1%nat in *. match goal with |- exists _, reshape ?P _ = _ /\ _ => set (Q := P) end.
    destruct (reshape_ok Q [1%nat; o]) as [r Er]. { unfold Q. cbn [shape]. rewrite !nprod_cons, nprod0. lia. }
    exists r. split; [exact Er|]. split; [apply (reshape_shape _ _ _ Er)|]. intros s Hs.
    rewrite (reshape_at Q r [1%nat; o] [O; s; O] [O; s] Er).
    2: { unfold Q. cbn [shape]. apply inb3; lia. }
    2: { unfold Q. cbn [shape ravel]. rewrite !nprod_cons, nprod0. lia. }
    unfold Q. cbn [at_ rsum]. destruct (HF [O] (inb1 _ _ Hb)) as (Y & EY & HY).
    pose proof (proj1 Hls _ _ _ _ _ EY s Hs O Hb) as SY. cbn [rsum] in SY. unfold slice2 in SY at 2.
    rewrite <- (flat5_slice Kin K 1 1 1 0 SK EK Hb O O ltac:(cbn; lia) ltac:(cbn; lia)) in SY.
    assert (K5 : flat5 Kin 1 0 0 0 = at_ Kin [O; O; O; O; O]) by reflexivity.
    assert (N0 : at_ Kin [O; O; O; O; O] <> 0).
    { intros Z. specialize (Hns O Hb (fun _ => 1)). assert (X : 1 = 0); [|lra]. apply (Hns) with (j := O); [|lia].
      intros i Hi. cbn [rsum]. replace i with O by lia. rewrite K5, Z. ring. }
    rewrite K5 in SY.
    replace (at_ (swapaxes_last F) [O; s; O]) with (Y O s) by (symmetry; apply (HY O s)).
    rewrite (reshape_at T t [1; 1]%nat [O; O; O] [O; O] ET); [|rewrite ST; apply inb3; lia|rewrite ST; reflexivity].
    rewrite (reshape_at Kcross C [1; 1; o]%nat [O; O; O; s] ([O] ++ [O; s]) EC) in SY;
      [|rewrite SC; apply inb4; lia|rewrite SC; cbn [app ravel]; rewrite !nprod_cons, nprod0; lia].
    replace (Y O s) with (at_ Kcross [O; O; O; s] / at_ Kin [O; O; O; O; O]); [ring|]. rewrite <- SY. field. exact N0.
Qed.
Lemma to_predictions_spec Kin Kcross T Kout b n ex :
  shape Kin = [b; n; n] -> shape Kcross = [b; n] -> shape T = b :: n :: ex -> shape Kout = [] -> no_coincidence ex [n] ->
  (forall x, (x < b)%nat -> nonsingular n (rowmat Kin x)) ->
  exists mean var, to_posterior_mean ls Kin Kcross T = Ok mean /\ to_diagonal_variance ls Kin Kcross Kout 1 = Ok var /\
    shape mean = b :: ex /\ shape var = [b] /\
    forall x, (x < b)%nat ->
      (forall e, inb ex e -> kriging n (rowmat Kin x) (rowvec Kcross x) (fun j => at_ T (x :: j :: e)) (at_ mean (x :: e))) /\
      exists t, kriging n (rowmat Kin x) (rowvec Kcross x) (rowvec Kcross x) t /\ at_ var [x] = at_ Kout [] - t.
Proof.
  intros SK SC ST SO NC Hns.
  assert (NP : nprod [n] = n) by (rewrite nprod_cons, nprod0; lia).
  assert (KM : forall x i j, (i < n)%nat -> (j < n)%nat -> Kmat Kin [n] [x] i j = rowmat Kin x i j).
  { intros x i j Hi Hj. unfold Kmat, rowmat. cbn [unravel app]. rewrite nprod0, !Nat.div_1_r. reflexivity. }
  assert (Hns' : forall x, inb [b] x -> nonsingular (nprod [n]) (Kmat Kin [n] x)).
  { intros x Hx. apply inb_inv1 in Hx as (x0 & -> & Hx). rewrite NP.
    apply (proj1 (nonsingular_cong n (rowmat Kin x0) (Kmat Kin [n] [x0]) (fun i j Hi Hj => eq_sym (KM x0 i j Hi Hj)))). apply Hns; auto. }
  destruct (posterior_mean_total ls Hls Kin Kcross T [b] [n] [] ex) as [mean EM]; auto; [discriminate|].
  destruct (diagonal_variance_total ls Hls Kin Kcross Kout [b] [n] []) as [var EV]; auto.
  exists mean, var. split; [exact EM|]. split; [exact EV|].
  destruct (posterior_mean_correct ls Hls Kin Kcross T [b] [n] [] ex mean) as [SM HM]; auto; [discriminate|].
  destruct (diagonal_variance_correct ls Hls Kin Kcross Kout [b] [n] [] var) as [SV HV]; auto.
  split; [exact SM|]. split; [exact SV|]. intros x Hx.
  assert (SO' : forall w, solves (nprod [n]) (Kmat Kin [n] [x]) w (fun a => at_ Kcross ([x] ++ unravel [n] a ++ [])) ->
    solves n (rowmat Kin x) w (rowvec Kcross x)).
  { rewrite NP. intros w W i Hi. specialize (W i Hi). cbn [unravel app] in W. rewrite nprod0, Nat.div_1_r in W. unfold rowvec. rewrite <- W.
    apply rsum_ext. intros j Hj. rewrite KM by auto. reflexivity. }
  split.
  - intros e He. destruct (HM [x] [] (inb1 _ _ Hx) inb_nil) as (w & W & E). exists w. split; [apply SO'; exact W|].
    rewrite NP in E. specialize (E e He). cbn [app] in E. rewrite E. unfold dot. apply rsum_ext. intros j Hj. cbn [unravel app].
    rewrite nprod0, Nat.div_1_r. reflexivity.
  - destruct (HV [x] [] (inb1 _ _ Hx) inb_nil) as (w & W & E). exists (dot n w (rowvec Kcross x)). split; [exists w; split; [apply SO'; exact W|reflexivity]|].
    rewrite NP in E. specialize (E [] inb_nil). cbn [app] in E. rewrite E. unfold dot, rowvec. f_equal. apply rsum_ext. intros j Hj. cbn [unravel app].
    rewrite nprod0, Nat.div_1_r. reflexivity.
Qed.
End Pred.
