(** Lemmas for C117. *)
From Coq Require Import Lia Lra Classical.
From Verif Require Import Base BaseFacts NdModel NdFacts RSum HyperModel NamedModel NamedSpec LinAlgModel LinAlgSpec LinAlgFacts Gauss
  GPModel NoiseModel GPProofs MuyGPSModel GPSpec MuyGPSProofs GPTheorems WellPosedProofs TensorModel TensorSpec TensorProofs KernelModel KernelSpec
  NeighborsModel NeighborsSpec NeighborsProofs FlowModel FlowSpec FlowProofs FlowLemmas PointwiseSpec LibSpec LibProofs
  MultiModel DriverModel WorkModel WorkSpec WorkProofs WorkLemmas BestSpec BestProofs CoincideSpec.
Local Open Scope R_scope.

Section C.
Variables (gamma : R -> R) (kv : R -> R -> R).

Lemma quad_supp n A B v : (forall i j, (i < n)%nat -> (j < n)%nat -> v i <> 0 -> v j <> 0 -> A i j = B i j) -> quad n A v = quad n B v.
Proof.
  intros H. unfold quad. apply rsum_ext. intros i Hi. apply rsum_ext. intros j Hj.
  destruct (Req_dec (v i) 0) as [->|Ni]; [ring|]. destruct (Req_dec (v j) 0) as [->|Nj]; [ring|]. rewrite H by assumption. reflexivity.
Qed.

Lemma abs_bound n (h : nat -> R) : exists B, forall i, (i < n)%nat -> h i < B.
Proof.
  exists (1 + rsum n (fun i => Rabs (h i))). intros i Hi.
  pose proof (rsum_term_le n (fun i => Rabs (h i)) i ltac:(intros; apply Rabs_pos) Hi). pose proof (Rle_abs (h i)). cbv beta in *. lra.
Qed.

(** A vector supported on pairwise distinct points. *)
Lemma lk_quad_pos K F cur kw (pt : nat -> nat -> R) n v : lk_ok K F cur kw ->
  (forall i j, (i < n)%nat -> (j < n)%nat -> i <> j -> v i <> 0 -> v j <> 0 -> exists f, (f < F)%nat /\ pt i f <> pt j f) ->
  (exists i, (i < n)%nat /\ v i <> 0) ->
  0 < quad n (fun i j => lk_cov gamma kv K F cur kw (fun f => pt i f - pt j f)) v.
Proof.
  intros OK DI NZ. assert (HF : (0 < F)%nat) by apply OK.
  destruct (abs_bound n (fun i => pt i O)) as [B HB].
  set (pt' := fun i f => if Req_EM_T (v i) 0 then B + INR i else pt i f).
  rewrite (quad_supp n _ (fun i j => lk_cov gamma kv K F cur kw (fun f => pt' i f - pt' j f)) v).
  - apply (lk_cov_pd gamma kv K F cur kw pt' n OK); [|exact NZ].
    intros i j Hi Hj Hij. unfold pt'.
    destruct (Req_EM_T (v i) 0) as [Zi|Ni], (Req_EM_T (v j) 0) as [Zj|Nj].
    + exists O. split; [exact HF|]. intros E. apply Hij. apply INR_eq. lra.
    + exists O. split; [exact HF|]. pose proof (HB j Hj). pose proof (pos_INR i). lra.
    + exists O. split; [exact HF|]. pose proof (HB i Hi). pose proof (pos_INR j). lra.
    + apply DI; assumption.
  - intros i j _ _ Ni Nj. unfold pt'. destruct (Req_EM_T (v i) 0); [contradiction|]. destruct (Req_EM_T (v j) 0); [contradiction|]. reflexivity.
Qed.

Lemma distinct_ns K cur kw m X n q x : lk_ok K (feature_count X) cur kw -> (forall i, (i < n)%nat -> 0 <= noise_at m None x i) ->
  ~ coincident m X n x (q x) -> nonsingular n (nbr_matrix (lk_cov gamma kv K (feature_count X) cur kw) m X q x).
Proof.
  intros OK N NC. apply pd_nonsingular. intros v NZ. unfold nbr_matrix.
  set (A := fun i j => kcov (lk_cov gamma kv K (feature_count X) cur kw) X X (q x i) (q x j)).
  assert (E : quad n (plus_diag A (noise_at m None x)) v = quad n A v + rsum n (fun i => noise_at m None x i * (v i * v i))).
  { rewrite <- quad_diag, <- quad_plus. apply quad_ext; auto. intros i j _ _. unfold plus_diag, delta. destruct (Nat.eqb i j); ring. }
  rewrite E.
  assert (T : forall i, (i < n)%nat -> 0 <= noise_at m None x i * (v i * v i)) by (intros i Hi; specialize (N i Hi); nra).
  pose proof (lk_cov_psd gamma kv K (feature_count X) cur kw (fun i f => feature X (q x i) f) n OK v) as P. fold A in P.
  pose proof (rsum_nonneg n _ T) as S0.
  destruct (classic (exists i, (i < n)%nat /\ v i <> 0 /\ 0 < noise_at m None x i)) as [(i & Hi & Vi & Ni)|NO].
  - pose proof (rsum_term_le n _ i T Hi) as TL. cbv beta in TL.
    assert (0 < noise_at m None x i * (v i * v i)) by (apply Rmult_lt_0_compat; [exact Ni|]; nra).
    change (0 <= quad n A v) in P. lra.
  - assert (0 < quad n A v); [|lra].
    apply (lk_quad_pos K (feature_count X) cur kw (fun i f => feature X (q x i) f) n v OK); [|exact NZ].
    intros i j Hi Hj Hij Vi Vj. apply NNPP. intros NE. apply NC. exists i, j. split; [exact Hi|]. split; [exact Hj|]. split; [exact Hij|].
    assert (ZN : forall a, (a < n)%nat -> v a <> 0 -> noise_at m None x a = 0).
    { intros a Ha Va. destruct (N a Ha) as [G|G]; [exfalso; apply NO; exists a; auto|symmetry; exact G]. }
    split; [apply ZN; assumption|]. split; [apply ZN; assumption|]. intros f Hf. apply NNPP. intros D. apply NE. exists f. auto.
Qed.

Lemma coincident_singular K F cur kw m X n q x : lk_ok K F cur kw -> F = feature_count X -> coincident m X n x (q x) ->
  ~ nonsingular n (nbr_matrix (lk_cov gamma kv K F cur kw) m X q x).
Proof.
  intros OK -> (i & j & Hi & Hj & Hij & Ni & Nj & EQ) NS.
  specialize (NS (fun a => delta a i - delta a j)).
  assert (Z : delta i i - delta i j = 0); [|unfold delta in Z; rewrite Nat.eqb_refl in Z; destruct (Nat.eqb_spec i j); [contradiction|lra]].
  apply NS; [|exact Hi]. intros a Ha.
  rewrite (rsum_ext n _ (fun b => delta b i * nbr_matrix (lk_cov gamma kv K (feature_count X) cur kw) m X q x a b - delta b j * nbr_matrix (lk_cov gamma kv K (feature_count X) cur kw) m X q x a b))
    by (intros; ring).
  rewrite rsum_minus.
  rewrite (rsum_delta n i (fun b => nbr_matrix _ m X q x a b)) by exact Hi. rewrite (rsum_delta n j (fun b => nbr_matrix _ m X q x a b)) by exact Hj.
  unfold nbr_matrix, plus_diag.
  assert (Q : kcov (lk_cov gamma kv K (feature_count X) cur kw) X X (q x a) (q x i) = kcov (lk_cov gamma kv K (feature_count X) cur kw) X X (q x a) (q x j)).
  { unfold kcov. apply (proj1 (lk_pointwise gamma kv K (feature_count X) cur kw OK)). intros f Hf. rewrite EQ by exact Hf. reflexivity. }
  rewrite Q. assert (D : forall b, noise_at m None x b = 0 -> (if (a =? b)%nat then noise_at m None x a else 0) = 0).
  { intros b Hb. destruct (Nat.eqb_spec a b) as [->|]; [exact Hb|reflexivity]. }
  rewrite !D by assumption. ring.
Qed.

Section Solve.
Variable ls : lsolver.
Hypothesis EX : exact_solver ls.

Lemma regress_indices_iff g K cur kw nn test train targets N M w q ex :
  lk_ok K (feature_count train) cur kw -> dataset test M -> dataset train N -> ndim test = ndim train ->
  feature_count test = feature_count train -> shape targets = N :: ex -> no_coincidence ex [w] ->
  shape (gp_Kout g) = [] -> at_ (gp_Kout g) [] = 1 ->
  index_matrix nn M w N q -> noise_fits (gp_noise g) M w -> (forall x i, (x < M)%nat -> (i < w)%nat -> 0 <= noise_at (gp_noise g) None x i) ->
  ((exists x, (x < M)%nat /\ coincident (gp_noise g) train w x (q x)) ->
     regress_from_indices ls (mkMm g (lk_call gamma kv K cur kw)) (arange M) nn test train targets = Err LinAlgError) /\
  ((forall x, (x < M)%nat -> ~ coincident (gp_noise g) train w x (q x)) ->
   exists mean var,
    regress_from_indices ls (mkMm g (lk_call gamma kv K cur kw)) (arange M) nn test train targets = Ok (mean, var) /\
    shape mean = M :: ex /\ shape var = [M] /\
    forall x, (x < M)%nat ->
      (forall e, inb ex e ->
        kriging w (nbr_matrix (lk_cov gamma kv K (feature_count train) cur kw) (gp_noise g) train q x)
          (fun j => kcov (lk_cov gamma kv K (feature_count train) cur kw) test train x (q x j))
          (fun j => at_ targets (q x j :: e)) (at_ mean (x :: e))) /\
      (exists wv, solves w (nbr_matrix (lk_cov gamma kv K (feature_count train) cur kw) (gp_noise g) train q x) wv
          (fun j => kcov (lk_cov gamma kv K (feature_count train) cur kw) test train x (q x j)) /\
        at_ var [x] = gp_var_scale g *
          (1 - dot w wv (fun j => kcov (lk_cov gamma kv K (feature_count train) cur kw) test train x (q x j))))).
Proof.
  intros OK D1 D2 ND FC HT NC SK K1 NN NF NP.
  set (k := lk_cov gamma kv K (feature_count train) cur kw).
  assert (PK : pointwise_kernel (feature_count train) (lk_call gamma kv K cur kw) k) by (apply lk_pointwise; auto).
  destruct (crosswise_kernel (feature_count train) (lk_call gamma kv K cur kw) k test train (arange M) nn M N M w (fun x => x) q)
    as (cw & Kc & Ecw & EKc & SKc & HKc); auto.
  destruct (pairwise_kernel (feature_count train) (lk_call gamma kv K cur kw) k train nn N M w q PK D2 eq_refl NN)
    as (pw & Kin & Epw & EK & SKi & HKv).
  destruct (targets_take targets nn N M w q ex HT NN) as (T & ET & ST & HTv).
  assert (HKx : forall x, (x < M)%nat -> forall i j, (i < w)%nat -> (j < w)%nat ->
     plus_diag (rowmat Kin x) (noise_at (gp_noise g) None x) i j = nbr_matrix k (gp_noise g) train q x i j).
  { intros x Hx i j Hi Hj. unfold nbr_matrix, plus_diag, rowmat. rewrite HKv; auto. }
  split.
  - intros (x & Hx & CO). unfold regress_from_indices. rewrite Ecw. cbn [bind]. rewrite Epw. cbn [bind]. rewrite ET. cbn [bind mm_kernel mm_gp].
    rewrite EK. cbn [bind]. rewrite EKc. cbn [bind]. unfold gp_posterior_mean.
    destruct (perturb3 (gp_noise g) None Kin M w NF SKi) as (Kp & EP & SP & HP). rewrite EP. cbn [bind].
    rewrite (posterior_mean_singular ls EX Kp Kc T [M] [w] [] ex [x]); auto; [discriminate|apply inb1; exact Hx|].
    intros NS. apply (coincident_singular K (feature_count train) cur kw (gp_noise g) train w q x OK eq_refl CO).
    assert (NW : nprod [w] = w) by apply Nat.mul_1_r. rewrite NW in NS.
    apply (nonsingular_ext w (Kmat Kp [w] [x])); [|exact NS]. intros i j Hi Hj. rewrite Kmat_rowmat. fold k. rewrite <- HKx by assumption.
    unfold rowmat, plus_diag. rewrite HP by assumption. reflexivity.
  - intros NCO.
    assert (NS' : forall x, (x < M)%nat -> nonsingular w (plus_diag (rowmat Kin x) (noise_at (gp_noise g) None x))).
    { intros x Hx. apply (nonsingular_ext w (nbr_matrix k (gp_noise g) train q x)); [intros; symmetry; apply HKx; auto|].
      apply (distinct_ns K cur kw (gp_noise g) train w q x OK); auto. }
    destruct (gp_mean_total ls EX (gp_noise g) None Kin Kc T M w ex NF SKi SKc ST NC NS') as (mean & Em & Sm & Hm).
    destruct (gp_var_total ls EX (gp_noise g) None Kin Kc (gp_Kout g) M w NF SKi SKc SK NS') as (v & Ev).
    destruct (gp_var_inv ls EX (gp_noise g) None Kin Kc (gp_Kout g) M w v NF SKi SKc SK Ev) as [Sv Hv].
    exists mean, (ndmap (Rmult (gp_var_scale g)) v). split.
    { unfold regress_from_indices. rewrite Ecw. cbn [bind]. rewrite Epw. cbn [bind]. rewrite ET. cbn [bind mm_kernel mm_gp].
      rewrite EK. cbn [bind]. rewrite EKc. cbn [bind]. unfold gp_posterior_mean. rewrite Em. cbn [bind].
      unfold gp_posterior_variance, gp_opt_variance. rewrite Ev. reflexivity. }
    split; [exact Sm|]. split; [exact Sv|]. intros x Hx.
    assert (SOL : forall wv, solves w (plus_diag (rowmat Kin x) (noise_at (gp_noise g) None x)) wv (rowvec Kc x) ->
       solves w (nbr_matrix k (gp_noise g) train q x) wv (fun j => kcov k test train x (q x j))).
    { intros wv Hw. apply (solves_ext w (plus_diag (rowmat Kin x) (noise_at (gp_noise g) None x))); [apply HKx; auto|].
      intros i Hi. etransitivity; [exact (Hw i Hi)|]. unfold rowvec. apply HKc; auto. }
    split.
    + intros e He. destruct (Hm x e Hx He) as (wv & Hw & Val). exists wv. split; [apply SOL; exact Hw|].
      rewrite Val. unfold dot. apply rsum_ext. intros j Hj. rewrite HTv; auto.
    + destruct (Hv x Hx) as (_ & wv & Hw & Val). apply SOL in Hw. exists wv. split; [exact Hw|].
      cbn [ndmap at_]. rewrite Val, K1. f_equal. f_equal. unfold dot, rowvec. apply rsum_ext. intros j Hj. rewrite HKc; auto.
Qed.

Variable knn : dict nnval -> list point -> point -> nat -> list (nat * R).
Variable hnsw : nnval -> list point -> point -> nat -> list (nat * R).
Variable dist : dict nnval -> point -> point -> R.
Hypothesis SKL : sklearn_ok knn dist.

Lemma regress_any_iff en method kw w g K cur test train targets N M n ex :
  lower method = "exact"%string -> euclidean_kw kw -> nn_init en (rows_of train) n method kw = Ok w -> (0 < n <= N /\ 0 < M)%nat ->
  dataset test M -> dataset train N -> ndim test = ndim train -> feature_count test = feature_count train ->
  lk_ok K (feature_count train) cur [] -> shape targets = N :: ex -> no_coincidence ex [n] ->
  shape (gp_Kout g) = [] -> at_ (gp_Kout g) [] = 1 ->
  noise_fits (gp_noise g) M n -> (forall x i, (x < M)%nat -> (i < n)%nat -> 0 <= noise_at (gp_noise g) None x i) ->
  exists q, (forall x, (x < M)%nat -> nearest_rows test train N x n (q x)) /\
    ((exists x, (x < M)%nat /\ coincident (gp_noise g) train n x (q x)) ->
       regress_any ls knn hnsw (Univariate (lib_model gamma kv g K cur)) test train w targets = Err LinAlgError) /\
    ((forall x, (x < M)%nat -> ~ coincident (gp_noise g) train n x (q x)) ->
     exists mean var,
      regress_any ls knn hnsw (Univariate (lib_model gamma kv g K cur)) test train w targets = Ok (mean, var) /\
      shape mean = M :: ex /\ shape var = [M] /\
      forall x, (x < M)%nat ->
        (forall e, inb ex e ->
          kriging n (nbr_matrix (lk_cov gamma kv K (feature_count train) cur []) (gp_noise g) train q x)
            (fun j => kcov (lk_cov gamma kv K (feature_count train) cur []) test train x (q x j))
            (fun j => at_ targets (q x j :: e)) (at_ mean (x :: e))) /\
        (exists wv, solves n (nbr_matrix (lk_cov gamma kv K (feature_count train) cur []) (gp_noise g) train q x) wv
            (fun j => kcov (lk_cov gamma kv K (feature_count train) cur []) test train x (q x j)) /\
          at_ var [x] = gp_var_scale g *
            (1 - dot n wv (fun j => kcov (lk_cov gamma kv K (feature_count train) cur []) test train x (q x j))))).
Proof.
  intros Hm He Hi Hn D1 D2 ND FC OK HT NC SK K1 NF NP. assert (HnN : (n <= N)%nat) by lia.
  destruct (lookup_rows knn hnsw dist SKL en method kw w test train N M n Hm He Hi Hn D1 D2 FC) as (I & D & EG & CW & IM & NR).
  assert (U : regress_any ls knn hnsw (Univariate (lib_model gamma kv g K cur)) test train w targets =
    regress_from_indices ls (lib_model gamma kv g K cur) (arange M) (index_array n I) test train targets).
  { unfold regress_any. rewrite (row_count_ok _ _ D1). cbn [bind]. rewrite EG. cbn [bind fst made_regress_from_indices]. rewrite CW. reflexivity. }
  rewrite U. exists (nbr knn hnsw w test). split; [exact NR|].
  exact (regress_indices_iff g K cur [] (index_array n I) test train targets N M n (nbr knn hnsw w test) ex OK D1 D2 ND FC HT NC SK K1 IM NF NP).
Qed.
End Solve.
End C.
