(** Lemmas for C125. *)
From Coq Require Import Lia Lra Classical.
From Verif Require Import Base BaseFacts NdModel NdFacts RSum HyperModel NamedModel NamedSpec LinAlgModel LinAlgSpec LinAlgFacts Gauss
  GPModel NoiseModel GPProofs MuyGPSModel GPSpec MuyGPSProofs GPTheorems WellPosedProofs TensorModel TensorSpec TensorProofs KernelModel KernelSpec
  NeighborsModel NeighborsSpec NeighborsProofs FlowModel FlowSpec FlowProofs FlowLemmas PointwiseSpec LibSpec LibProofs
  MultiModel MultiSpec MultiProofs DriverModel BackendModel BackendProofs DeepModel DeepProofs WorkModel WorkSpec WorkProofs WorkLemmas
  BestSpec BestGram BestProofs FarSpec DupProofs SimplerSpec NativeSpec NativeProofs FitSpec FitProofs CoincideSpec CoincideProofs.
Local Open Scope R_scope.

Section M.
Variables (gamma : R -> R) (kv : R -> R -> R).
Variable ls : lsolver.
Hypothesis EX : exact_solver ls.
Variable knn : dict nnval -> list point -> point -> nat -> list (nat * R).
Variable hnsw : nnval -> list point -> point -> nat -> list (nat * R).
Variable dist : dict nnval -> point -> point -> R.
Hypothesis Hsk : sklearn_ok knn dist.
Local Notation multi ms := (Multivariate (map (fun e => lib_model gamma kv (fst (fst e)) (snd (fst e)) (snd e)) ms)).

(** The mean of one submodel: fails exactly on coinciding neighbours. *)
Lemma one_mean g K cur nn test train targets T cw pw N M n q F r i :
  lk_ok K F cur [] -> shape test = [M; F] -> shape train = [N; F] -> shape targets = [N; r] -> take targets nn = Ok T -> (i < r)%nat -> n <> 1%nat ->
  shape (gp_Kout g) = [] -> noise_fits (gp_noise g) M n -> (forall x j, (x < M)%nat -> (j < n)%nat -> 0 <= noise_at (gp_noise g) None x j) ->
  index_matrix nn M n N q -> crosswise_tensor test train (arange M) nn = Ok cw -> pairwise_tensor train nn = Ok pw ->
  ((exists x, (x < M)%nat /\ coincident (gp_noise g) train n x (q x)) -> univariate_mean ls (lib_model gamma kv g K cur) pw cw T i = Err LinAlgError) /\
  ((forall x, (x < M)%nat -> ~ coincident (gp_noise g) train n x (q x)) ->
     exists t, univariate_mean ls (lib_model gamma kv g K cur) pw cw T i = Ok t /\ nprod (shape t) = M).
Proof.
  intros OK St Sx HT ET Hi N1 SK NF NP IM Ecw Epw.
  assert (D1 : dataset test M) by (right; eauto). assert (D2 : dataset train N) by (right; eauto).
  assert (ND : ndim test = ndim train) by (unfold ndim; rewrite St, Sx; reflexivity).
  assert (FC1 : feature_count test = F) by (unfold feature_count; rewrite St; reflexivity).
  assert (FC2 : feature_count train = F) by (unfold feature_count; rewrite Sx; reflexivity).
  set (k := lk_cov gamma kv K F cur []).
  assert (PK : pointwise_kernel F (lk_call gamma kv K cur []) k) by (apply lk_pointwise; auto).
  destruct (crosswise_kernel F (lk_call gamma kv K cur []) k test train (arange M) nn M N M n (fun x => x) q)
    as (cw' & Kc & Ecw' & EKc & SKc & HKc); auto.
  destruct (pairwise_kernel F (lk_call gamma kv K cur []) k train nn N M n q PK D2 FC2 IM) as (pw' & Kin & Epw' & EK & SKi & HKv).
  rewrite Ecw in Ecw'; injection Ecw' as <-. rewrite Epw in Epw'; injection Epw' as <-.
  destruct (target_tensor targets nn N M n q r HT IM) as (T' & ET' & ST & HTv).
  assert (T' = T) by congruence; subst T'.
  assert (HKx : forall x, (x < M)%nat -> forall a b, (a < n)%nat -> (b < n)%nat ->
     plus_diag (rowmat Kin x) (noise_at (gp_noise g) None x) a b = nbr_matrix k (gp_noise g) train q x a b).
  { intros x Hx a b Ha Hb. unfold nbr_matrix, plus_diag, rowmat. rewrite HKv; auto. }
  assert (NC : no_coincidence [1%nat] [n]) by (apply no_coincidence_1; auto).
  pose proof (response_column_shape T i M n r ST) as SR.
  unfold univariate_mean. cbn [lib_model mm_kernel mm_gp]. rewrite EK, EKc. cbn [bind]. split.
  - intros (x & Hx & CO). unfold gp_posterior_mean.
    destruct (perturb3 (gp_noise g) None Kin M n NF SKi) as (Kp & EP & SP & HP). rewrite EP. cbn [bind].
    apply (posterior_mean_singular ls EX Kp Kc (response_column T i) [M] [n] [] [1%nat] [x]); auto; [discriminate|apply inb1; exact Hx|].
    intros NS. apply (coincident_singular gamma kv K F cur [] (gp_noise g) train n q x OK (eq_sym FC2) CO).
    assert (NW : nprod [n] = n) by apply Nat.mul_1_r. rewrite NW in NS.
    apply (nonsingular_ext n (Kmat Kp [n] [x])); [|exact NS]. intros a b Ha Hb. rewrite Kmat_rowmat. fold k. rewrite <- HKx by assumption.
    unfold rowmat, plus_diag. rewrite HP by assumption. reflexivity.
  - intros NCO.
    assert (NS : forall x, (x < M)%nat -> nonsingular n (plus_diag (rowmat Kin x) (noise_at (gp_noise g) None x))).
    { intros x Hx. apply (nonsingular_ext n (nbr_matrix k (gp_noise g) train q x)); [intros; symmetry; apply HKx; auto|].
      unfold k. rewrite <- FC2 in OK |- *. apply distinct_ns; auto. }
    destruct (gp_mean_total ls EX (gp_noise g) None Kin Kc (response_column T i) M n [1%nat] NF SKi SKc SR NC NS) as (mean & Em & Sm & _).
    exists mean. split; [exact Em|]. rewrite Sm, !nprod_cons, nprod0. lia.
Qed.

Definition one_each_fails (ms : list (gp * libkernel * (nat -> R))) (train : nd R) (M n : nat) (q : nat -> nat -> nat) : Prop :=
  exists g K cur x, In (g, K, cur) ms /\ (x < M)%nat /\ coincident (gp_noise g) train n x (q x).

Lemma multi_any_iff en method kw w (ms : list (gp * libkernel * (nat -> R))) test train targets F N M n r :
  lower method = "exact"%string -> euclidean_kw kw -> nn_init en (rows_of train) n method kw = Ok w -> (0 < n <= N /\ 0 < M)%nat -> n <> 1%nat ->
  shape test = [M; F] -> shape train = [N; F] -> shape targets = [N; r] -> ms <> [] -> (List.length ms <= r)%nat ->
  (forall g K cur, In (g, K, cur) ms -> lk_ok K F cur [] /\ shape (gp_Kout g) = [] /\ at_ (gp_Kout g) [] = 1 /\
     noise_fits (gp_noise g) M n /\ forall x i, (x < M)%nat -> (i < n)%nat -> 0 <= noise_at (gp_noise g) None x i) ->
  let q := nbr knn hnsw w test in
    (forall x, (x < M)%nat -> nearest_rows test train N x n (q x)) /\
    (one_each_fails ms train M n q -> regress_any ls knn hnsw (multi ms) test train w targets = Err LinAlgError) /\
    (~ one_each_fails ms train M n q -> exists mean var,
       regress_any ls knn hnsw (multi ms) test train w targets = Ok (mean, var) /\
       shape mean = [M; r] /\ shape var = [M; List.length ms] /\
       forall i g K cur x, nth_error ms i = Some (g, K, cur) -> (x < M)%nat ->
         nonsingular n (nbr_matrix (lk_cov gamma kv K F cur []) (gp_noise g) train q x) /\
         kriging n (nbr_matrix (lk_cov gamma kv K F cur []) (gp_noise g) train q x)
           (fun j => kcov (lk_cov gamma kv K F cur []) test train x (q x j))
           (fun j => at_ targets [q x j; i]) (at_ mean [x; i]) /\
         exists wv, solves n (nbr_matrix (lk_cov gamma kv K F cur []) (gp_noise g) train q x) wv
             (fun j => kcov (lk_cov gamma kv K F cur []) test train x (q x j)) /\
           at_ var [x; i] = gp_scale g * (gp_var_scale g *
             (1 - dot n wv (fun j => kcov (lk_cov gamma kv K F cur []) test train x (q x j))))).
Proof.
  intros Hm He Hi Hn N1 St Sx HT NE Hlen Hms.
  assert (D1 : dataset test M) by (right; eauto). assert (D2 : dataset train N) by (right; eauto).
  assert (FC1 : feature_count test = F) by (unfold feature_count; rewrite St; reflexivity).
  assert (FC2 : feature_count train = F) by (unfold feature_count; rewrite Sx; reflexivity).
  destruct (lookup_rows knn hnsw dist Hsk en method kw w test train N M n Hm He Hi Hn D1 D2) as (I & D & EG & CW & IM & NR); [congruence|].
  cbv zeta. set (q := nbr knn hnsw w test) in *.
  destruct (target_tensor targets (index_array n I) N M n q r HT IM) as (T & ET & ST & HTv).
  set (k := fun i => match nth_error ms i with Some (_, K, cur) => lk_cov gamma kv K F cur [] | None => fun _ => 0 end).
  set (mk := fun e : gp * libkernel * (nat -> R) => lib_model gamma kv (fst (fst e)) (snd (fst e)) (snd e)).
  assert (NTH : forall i m, nth_error (map mk ms) i = Some m -> exists g K cur, nth_error ms i = Some (g, K, cur) /\
     m = lib_model gamma kv g K cur /\ k i = lk_cov gamma kv K F cur []).
  { intros i m E. rewrite nth_error_map in E. destruct (nth_error ms i) as [[[g K] cur]|] eqn:En; [|discriminate].
    cbn in E. injection E as <-. exists g, K, cur. split; [auto|]. split; [reflexivity|]. unfold k. rewrite En. reflexivity. }
  assert (U : regress_any ls knn hnsw (Multivariate (map mk ms)) test train w targets = mm_regress_from_indices ls (map mk ms) (arange M) (index_array n I) test train targets).
  { unfold regress_any. rewrite (row_count_ok _ _ D1). cbn [bind]. rewrite EG. cbn [bind fst made_regress_from_indices]. rewrite CW. reflexivity. }
  split; [exact NR|]. split.
  - intros (g0 & K0 & cur0 & x0 & Hin & Hx0 & CO). rewrite U. unfold mm_regress_from_indices.
    assert (HK0 : pointwise_kernel F (fun d => Ok (mkNd (removelast (shape d)) (fun _ => 0))) (fun _ => 0)).
    { split; [reflexivity|]. intros d sh Hs. eexists. split; [reflexivity|]. cbn [shape at_]. rewrite Hs, removelast_last. auto. }
    destruct (crosswise_kernel F _ _ test train (arange M) (index_array n I) M N M n (fun x => x) q HK0) as (cw & Kc & Ecw & _); auto.
    { unfold ndim; rewrite St, Sx; reflexivity. }
    destruct (pairwise_kernel F _ _ train (index_array n I) N M n q HK0 D2 FC2 IM) as (pw & Kp & Epw & _).
    assert (NEm : map mk ms <> []) by (destruct ms; [congruence|discriminate]).
    assert (UM : forall (X : result (nd R * nd R)), (match map mk ms with [] => Err IndexError | _ :: _ => X end) = X) by (intros X; destruct (map mk ms); [congruence|reflexivity]).
    rewrite UM.
    rewrite Ecw. cbn [bind]. rewrite Epw. cbn [bind]. rewrite ET. cbn [bind].
    assert (ONE : forall i m, nth_error (map mk ms) i = Some m ->
       univariate_mean ls m pw cw T i = Err LinAlgError \/ exists t, univariate_mean ls m pw cw T i = Ok t /\ nprod (shape t) = M).
    { intros i m E. destruct (NTH i m E) as (g & K & cur & En & -> & _). destruct (Hms g K cur (nth_error_In _ _ En)) as (OK & SK & K1 & NF & NP).
      assert (Hir : (i < r)%nat) by (pose proof (proj1 (nth_error_Some ms i) ltac:(congruence)); lia).
      destruct (one_mean g K cur (index_array n I) test train targets T cw pw N M n q F r i OK St Sx HT ET Hir N1 SK NF NP IM Ecw Epw) as [A B].
      destruct (classic (exists x, (x < M)%nat /\ coincident (gp_noise g) train n x (q x))) as [C|C]; [left; apply A, C|right].
      apply B. intros x Hx CX. apply C. eauto. }
    assert (LM : (List.length (map mk ms) <= r)%nat) by (rewrite map_length; auto).
    destruct (mm_posterior_mean ls (map mk ms) pw cw T) as [p|e] eqn:Ep; cbn [bind].
    + exfalso. destruct (mm_mean_ok ls (map mk ms) pw cw T M n r p ST Ep) as (_ & _ & Hc & _).
      destruct (In_nth_error _ _ Hin) as [i En].
      destruct (Hms g0 K0 cur0 Hin) as (OK & SK & K1 & NF & NP).
      assert (Hir : (i < r)%nat) by (pose proof (proj1 (nth_error_Some ms i) ltac:(congruence)); lia).
      destruct (Hc i (mk (g0, K0, cur0))) as (t & Et & _); [rewrite nth_error_map, En; reflexivity|].
      destruct (one_mean g0 K0 cur0 (index_array n I) test train targets T cw pw N M n q F r i OK St Sx HT ET Hir N1 SK NF NP IM Ecw Epw) as [A _].
      assert (X : univariate_mean ls (mk (g0, K0, cur0)) pw cw T i = Err LinAlgError) by (apply A; eauto). congruence.
    + destruct (mm_mean_err ls (map mk ms) pw cw T M n r e ST LM Ep) as (i & m & En & _ & [Ee|(t & Et & Nt & _)]).
      * destruct (ONE i m En) as [X|(t & X & _)]; congruence.
      * exfalso. destruct (ONE i m En) as [X|(t' & X & Np)]; [congruence|]. rewrite Et in X. injection X as <-. contradiction.
  - intros NO. rewrite U.
    assert (NSS : forall i g K cur x, nth_error ms i = Some (g, K, cur) -> (x < M)%nat ->
       nonsingular n (nbr_matrix (lk_cov gamma kv K F cur []) (gp_noise g) train q x)).
    { intros i g K cur x En Hx. destruct (Hms g K cur (nth_error_In _ _ En)) as (OK & SK & K1 & NF & NP).
      rewrite <- FC2 in OK |- *. apply distinct_ns; auto. intros CO. apply NO. exists g, K, cur, x. split; [apply (nth_error_In _ _ En)|]. auto. }
    destruct (torch_multi ls (map mk ms) F k (arange M) (index_array n I) test train targets T N M M n q (fun x => x) r)
      as (cw & pw & p & v & Ecw & Epw & Ep & Ev & Sp & Sv & Hp & Hv); auto.
    + rewrite map_length. auto.
    + intros i m E. destruct (NTH i m E) as (g & K & cur & En & -> & Ek). rewrite Ek.
      destruct (Hms g K cur (nth_error_In _ _ En)) as (OK & SK & K1 & NF & NP). cbn [lib_model mm_kernel mm_gp].
      split; [apply lk_pointwise; auto|]. split; [auto|]. split; [auto|]. intros x Hx. apply (NSS i); auto.
    + rewrite to_crosswise_eq in Ecw by (unfold ndim; rewrite ?St; reflexivity).
      rewrite to_pairwise_eq in Epw by (unfold ndim; rewrite ?Sx; cbn; auto).
      exists p, v. split.
      { unfold mm_regress_from_indices. destruct (map mk ms) as [|m0 ms0] eqn:Em; [destruct ms; [congruence|discriminate]|].
        rewrite Ecw. cbn [bind]. rewrite Epw. cbn [bind]. rewrite ET. cbn [bind]. rewrite Ep. cbn [bind]. rewrite Ev. reflexivity. }
      split; [exact Sp|]. split; [rewrite Sv, map_length; reflexivity|].
      intros i g K cur x En Hx. split; [apply (NSS i); auto|].
      assert (E : nth_error (map mk ms) i = Some (lib_model gamma kv g K cur)) by (rewrite nth_error_map, En; reflexivity).
      assert (Ek : k i = lk_cov gamma kv K F cur []) by (unfold k; rewrite En; reflexivity).
      destruct (Hms g K cur (nth_error_In _ _ En)) as (_ & _ & K1 & _).
      pose proof (Hp i _ x E Hx) as A. pose proof (Hv i _ x E Hx) as B. rewrite Ek in A, B. cbn [lib_model mm_gp] in A, B. rewrite K1 in B.
      split; [exact A|exact B].
Qed.

(** Documented submodels: the core facts of each response. *)
Lemma multi_core en method kw w (ms : list (gp * libkernel * (nat -> R))) test train targets F N M n r :
  regression en method kw w test train targets N M n [r] -> n <> 1%nat -> shape test = [M; F] -> shape train = [N; F] ->
  ms <> [] -> (List.length ms <= r)%nat -> (forall g K cur, In (g, K, cur) ms -> documented g K cur [] train N M n) ->
  exists mean var, let q := nbr knn hnsw w test in
    regress_any ls knn hnsw (multi ms) test train w targets = Ok (mean, var) /\ shape mean = [M; r] /\ shape var = [M; List.length ms] /\
    (forall x, (x < M)%nat -> nearest_rows test train N x n (q x)) /\
    forall i g K cur x, nth_error ms i = Some (g, K, cur) -> (x < M)%nat ->
      let k := lk_cov gamma kv K F cur [] in
      lk_ok K F cur [] /\ 0 <= gp_var_scale g /\ well_posed (gp_noise g) train M n q /\
      (forall j, (j < n)%nat -> 0 <= noise_at (gp_noise g) None x j) /\
      nonsingular n (nbr_matrix k (gp_noise g) train q x) /\
      exists u, solves n (nbr_matrix k (gp_noise g) train q x) u (fun j => kcov k test train x (q x j)) /\
        at_ mean [x; i] = rsum n (fun j => u j * at_ targets [q x j; i]) /\
        at_ var [x; i] = gp_scale g * (gp_var_scale g * error_variance k (gp_noise g) test train x n (q x) u).
Proof.
  intros (Hm & He & Hi & Hn & D1 & D2 & ND & FC & HT & NC) N1 St Sx NE HL Hms.
  assert (FF : feature_count train = F) by (unfold feature_count; rewrite Sx; reflexivity).
  destruct (regress_any_multi_nbr gamma kv ls EX knn hnsw dist Hsk en method kw w ms test train targets F N M n r) as (mean & var & E & Sm & Sv & NR & V); auto.
  { intros g K cur Hin. destruct (Hms g K cur Hin) as (OK & SK & K1 & SC & NF & SN). rewrite FF in OK. auto. }
  exists mean, var. cbv zeta in *. set (q := nbr knn hnsw w test) in *.
  split; [exact E|]. split; [exact Sm|]. split; [exact Sv|]. split; [exact NR|].
  intros i g K cur x En Hx. destruct (Hms g K cur (nth_error_In _ _ En)) as (OK & SK & K1 & SC & NF & SN).
  assert (WP : well_posed (gp_noise g) train M n q) by (apply (sound_well_posed _ test train N); auto).
  pose proof (well_posed_ns gamma kv K cur [] (gp_noise g) train M n q OK WP x Hx) as NS. rewrite FF in *.
  destruct (V i g K cur x En Hx) as [(u & SO & EM) (wv & SO' & EV)].
  split; [exact OK|]. split; [exact SC|]. split; [exact WP|]. split.
  { intros j Hj. destruct SN as [P|[P _]]; [left|]; apply P; assumption. }
  split; [exact NS|]. exists u. split; [exact SO|]. split; [exact EM|].
  rewrite EV. rewrite <- FF in OK. 
  destruct (error_optimal gamma kv K cur [] (gp_noise g) test train M x n q u OK WP Hx) as [EE _]; [rewrite FF; exact SO|].
  rewrite FF in EE. rewrite EE. f_equal. f_equal. f_equal. unfold dot. apply rsum_ext. intros j Hj.
  rewrite (solves_unique n _ wv u _ NS SO' SO j Hj). reflexivity.
Qed.

Lemma multi_best en method kw w (ms : list (gp * libkernel * (nat -> R))) test train targets F N M n r :
  regression en method kw w test train targets N M n [r] -> n <> 1%nat -> shape test = [M; F] -> shape train = [N; F] ->
  ms <> [] -> (List.length ms <= r)%nat -> (forall g K cur, In (g, K, cur) ms -> documented g K cur [] train N M n) ->
  exists mean var q,
    regress_any ls knn hnsw (multi ms) test train w targets = Ok (mean, var) /\ shape mean = [M; r] /\ shape var = [M; List.length ms] /\
    forall x, (x < M)%nat -> nearest_rows test train N x n (q x) /\
      forall i g K cur, nth_error ms i = Some (g, K, cur) ->
        exists u, at_ mean [x; i] = rsum n (fun j => u j * at_ targets [q x j; i]) /\
          let error := error_variance (lk_cov gamma kv K F cur []) (gp_noise g) test train x n (q x) in
          at_ var [x; i] = gp_scale g * gp_var_scale g * error u /\
          forall v, error u <= error v /\ (error v = error u -> forall j, (j < n)%nat -> v j = u j).
Proof.
  intros RG N1 St Sx NE HL Hms.
  assert (FF : feature_count train = F) by (unfold feature_count; rewrite Sx; reflexivity).
  destruct (multi_core en method kw w ms test train targets F N M n r RG N1 St Sx NE HL Hms) as (mean & var & E & Sm & Sv & NR & V). cbv zeta in *.
  exists mean, var, (nbr knn hnsw w test). split; [exact E|]. split; [exact Sm|]. split; [exact Sv|].
  intros x Hx. split; [apply NR; auto|]. intros i g K cur En.
  destruct (V i g K cur x En Hx) as (OK & SC & WP & N0 & NS & u & SO & EM & EV). exists u. split; [exact EM|]. split; [rewrite EV; ring|].
  rewrite <- FF in OK. destruct (error_optimal gamma kv K cur [] (gp_noise g) test train M x n (nbr knn hnsw w test) u OK WP Hx) as [_ O]; [rewrite FF; exact SO|].
  rewrite FF in O. exact O.
Qed.

Lemma multi_fit en method kw w (ms : list (gp * libkernel * (nat -> R))) test train targets F N M n r :
  regression en method kw w test train targets N M n [r] -> n <> 1%nat -> shape test = [M; F] -> shape train = [N; F] ->
  ms <> [] -> (List.length ms <= r)%nat -> (forall g K cur, In (g, K, cur) ms -> documented g K cur [] train N M n) ->
  exists mean var q,
    regress_any ls knn hnsw (multi ms) test train w targets = Ok (mean, var) /\ shape mean = [M; r] /\ shape var = [M; List.length ms] /\
    forall x, (x < M)%nat -> nearest_rows test train N x n (q x) /\
      forall i g K cur, nth_error ms i = Some (g, K, cur) ->
        let k := lk_cov gamma kv K F cur [] in
        let y := fun b => at_ targets [b; i] in
        let z := fun j => feature train (q x j) in
        (exists a, at_ mean [x; i] = span k n z a (feature test x) /\ best_fit k (gp_noise g) train x n (q x) y n z a) /\
        forall p z' a', 0 <= gp_scale g -> respects (gp_noise g) train x n (q x) y (span k p z' a') ->
          gp_scale g * gp_var_scale g * (at_ mean [x; i] - span k p z' a' (feature test x)) ^ 2 <=
          penalised k (gp_noise g) train x n (q x) y p z' a' * at_ var [x; i].
Proof.
  intros RG N1 St Sx NE HL Hms.
  assert (FF : feature_count train = F) by (unfold feature_count; rewrite Sx; reflexivity).
  destruct (multi_core en method kw w ms test train targets F N M n r RG N1 St Sx NE HL Hms) as (mean & var & E & Sm & Sv & NR & V). cbv zeta in *.
  exists mean, var, (nbr knn hnsw w test). split; [exact E|]. split; [exact Sm|]. split; [exact Sv|].
  intros x Hx. split; [apply NR; auto|]. intros i g K cur En. set (q := nbr knn hnsw w test) in *.
  destruct (V i g K cur x En Hx) as (OK & SC & WP & N0 & NS & u & SO & EM & EV).
  rewrite <- FF in *. split.
  - set (k := lk_cov gamma kv K (feature_count train) cur []) in *. set (A := nbr_matrix k (gp_noise g) train q x) in *.
    pose proof (coefs_ok ls EX n A (fun j => at_ targets [q x j; i]) NS) as SA. set (al := coefs ls n A (fun j => at_ targets [q x j; i])) in *.
    exists al. split.
    + rewrite EM. pose proof (nbr_sym gamma kv K (feature_count train) cur [] (gp_noise g) train n q x) as SY. fold k in SY. fold A in SY.
      pose proof (symmetric_adjoint n A u al _ _ SY SO SA) as Y. unfold dot in Y. rewrite Y. unfold span. apply rsum_ext. intros j Hj. unfold kcov. ring.
    + exact (fit_best gamma kv K cur (gp_noise g) train x n (q x) (fun b => at_ targets [b; i]) al OK N0 SA).
  - intros p z' a' G RS.
    pose proof (native_core gamma kv K cur (gp_noise g) test train x n (q x) u p z' a' (fun b => at_ targets [b; i]) OK N0) as C.
    assert (NR' : forall j, (j < n)%nat -> 0 < noise_at (gp_noise g) None x j \/
       noise_at (gp_noise g) None x j = 0 /\ at_ targets [q x j; i] = span (lk_cov gamma kv K (feature_count train) cur []) p z' a' (feature train (q x j))).
    { intros j Hj. destruct (N0 j Hj) as [P|P]; [left; exact P|right; split; [symmetry; exact P|apply RS; auto]]. }
    specialize (C NR'). rewrite EM, EV. unfold penalised.
    apply (Rmult_le_compat_l (gp_scale g * gp_var_scale g)) in C; [|apply Rmult_le_pos; assumption].
    match type of C with ?A <= ?B => apply Rle_trans with A; [right; cbn beta; ring|apply Rle_trans with B; [exact C|right; ring]] end.
Qed.
End M.
