(** Lemmas for C127. *)
From Coq Require Import Lia Lra FunctionalExtensionality.
From Verif Require Import Base BaseFacts NdModel NdFacts RSum HyperModel NamedModel NamedSpec LinAlgModel LinAlgSpec LinAlgFacts Gauss
  GPModel NoiseModel MuyGPSModel GPSpec GPTheorems WellPosedProofs TensorModel TensorSpec TensorProofs KernelModel KernelSpec KernelProofs KernelCases
  NeighborsModel NeighborsSpec NeighborsProofs FlowModel FlowSpec FlowProofs PointwiseSpec LibSpec LibProofs
  MultiModel DriverModel WorkModel WorkSpec WorkProofs WorkLemmas BestSpec BestProofs FarSpec FarProofs SmoothSpec SmoothProofs SimplerSpec
  NearCorrProofs OriginSpec.
Local Open Scope R_scope.

Section Origin.
Variable gamma : R -> R.
Variable kv : R -> R -> R.

Lemma cov_one_iff K cur test train x a : lk_ok K (feature_count train) cur [] ->
  (kcov (lk_cov gamma kv K (feature_count train) cur []) test train x a = 1 <-> same_row test train x a).
Proof.
  intros OK. unfold kcov. destruct (lk_value_same gamma kv K (feature_count train) cur []) as (f & nu & E & G). specialize (G OK). rewrite E.
  pose proof (matern_value_corr gamma kv f nu G) as C.
  set (v := fun f0 : nat => feature test x f0 - feature train a f0).
  destruct (corr_iff _ (sdist (feature_count train) (scale_of (lk_def K) cur []) v) C (sqrt_pos _)) as [_ I1]. rewrite I1.
  destruct OK as (_ & _ & POS & _). unfold sdist. split.
  - intros Z. apply sqrt_eq_0 in Z; [|apply rsum_nonneg; intros; apply pow2_ge_0]. pose proof (proj1 (scaled_zero _ _ _ _ POS) Z) as Z1.
    intros f0 Hf. specialize (Z1 f0 Hf). unfold v in Z1. lra.
  - intros SR. rewrite (proj2 (scaled_zero _ _ v (fun _ => 0) POS)); [apply sqrt_0|]. intros f0 Hf. unfold v. rewrite (SR f0 Hf). ring.
Qed.

Variable ls : lsolver.
Hypothesis EX : exact_solver ls.
Variable knn : dict nnval -> list point -> point -> nat -> list (nat * R).
Variable hnsw : nnval -> list point -> point -> nat -> list (nat * R).
Variable dist : dict nnval -> point -> point -> R.
Hypothesis SK : sklearn_ok knn dist.

Lemma shifted_law en method kw w g K cur test train targets N M n ex :
  regression en method kw w test train targets N M n ex -> documented g K cur [] train N M n ->
  exists s : nat -> R, forall c, exists mean var mean' var',
    regress_any ls knn hnsw (Univariate (lib_model gamma kv g K cur)) test train w targets = Ok (mean, var) /\
    regress_any ls knn hnsw (Univariate (lib_model gamma kv g K cur)) test train w (shifted targets c) = Ok (mean', var') /\
    forall x, (x < M)%nat -> at_ var' [x] = at_ var [x] /\ forall e, inb ex e -> at_ mean' (x :: e) = at_ mean (x :: e) + c * s x.
Proof.
  intros (Hm & He & Hw & Hn & D1 & D2 & ND & FC & HT & NC) (OK & SKo & K1 & SC & NF & SN).
  set (ones := mkNd (N :: ex) (fun _ : list nat => 1)).
  destruct (best_linear gamma kv ls EX knn hnsw dist SK en method kw w g K cur test train ones N M n ex) as (m1 & v1 & q & u & E1 & V1); auto.
  exists (fun x => rsum n (u x)). intros c.
  destruct (superposition gamma kv ls EX knn hnsw dist SK en method kw w g K cur test train targets ones N M n ex 1 c)
    as (mean & mean1 & mean' & var & var1 & var' & A & B & C & D); auto.
  exists mean, var, mean', var'. split; [exact A|].
  assert (EQ : mkNd (N :: ex) (fun idx => 1 * at_ targets idx + c * at_ ones idx) = shifted targets c).
  { unfold shifted. rewrite HT. f_equal. apply functional_extensionality. intros idx. unfold ones. cbn [at_]. ring. }
  rewrite EQ in C. split; [exact C|]. intros x Hx. destruct (D x Hx) as (_ & DV & DM). split; [exact DV|]. intros e He'.
  rewrite (DM e He'). assert (X : mean1 = m1) by congruence. subst mean1. destruct (V1 x Hx) as (_ & MU & _). rewrite (MU e He').
  unfold ones. cbn [at_]. rewrite (rsum_ext n (fun j => u x j * 1) (u x)) by (intros; ring). ring.
Qed.

Lemma shifted_one en method kw w g K cur test train targets N M ex c :
  regression en method kw w test train targets N M 1 ex -> documented g K cur [] train N M 1 ->
  exists mean var mean' var' q,
    regress_any ls knn hnsw (Univariate (lib_model gamma kv g K cur)) test train w targets = Ok (mean, var) /\
    regress_any ls knn hnsw (Univariate (lib_model gamma kv g K cur)) test train w (shifted targets c) = Ok (mean', var') /\
    forall x, (x < M)%nat -> nearest_rows test train N x 1 (q x) /\ forall e, inb ex e ->
      let rho := kcov (lk_cov gamma kv K (feature_count train) cur []) test train x (q x 0%nat) in
      at_ mean' (x :: e) = at_ mean (x :: e) + c * (rho / (1 + noise_at (gp_noise g) None x 0)) /\
      (at_ mean' (x :: e) = at_ mean (x :: e) + c <-> c = 0 \/ noise_at (gp_noise g) None x 0 = 0 /\ same_row test train x (q x 0%nat)).
Proof.
  intros (Hm & He & Hw & Hn & D1 & D2 & ND & FC & HT & NC) (OK & SKo & K1 & SC & NF & SN).
  set (ones := mkNd (N :: ex) (fun _ : list nat => 1)).
  destruct (best_linear gamma kv ls EX knn hnsw dist SK en method kw w g K cur test train ones N M 1 ex) as (m1 & v1 & q & u & E1 & V1); auto.
  destruct (superposition gamma kv ls EX knn hnsw dist SK en method kw w g K cur test train targets ones N M 1 ex 1 c)
    as (mean & mean1 & mean' & var & var1 & var' & A & B & C & D); auto.
  exists mean, var, mean', var', q. split; [exact A|].
  assert (EQ : mkNd (N :: ex) (fun idx => 1 * at_ targets idx + c * at_ ones idx) = shifted targets c).
  { unfold shifted. rewrite HT. f_equal. apply functional_extensionality. intros idx. unfold ones. cbn [at_]. ring. }
  rewrite EQ in C. split; [exact C|]. intros x Hx. destruct (V1 x Hx) as (NR & MU & _ & OPT). split; [exact NR|]. intros e He' rho.
  destruct (D x Hx) as (_ & _ & DM). assert (X : mean1 = m1) by congruence. subst mean1.
  assert (N0 : 0 <= noise_at (gp_noise g) None x 0) by (destruct SN as [P|[P _]]; [left|]; apply P; lia).
  set (s := 1 + noise_at (gp_noise g) None x 0) in *. assert (S0 : 0 < s) by (unfold s; lra).
  assert (ES : forall d, error_variance (lk_cov gamma kv K (feature_count train) cur []) (gp_noise g) test train x 1 (q x) (fun j => d * delta j 0) =
    1 - 2 * d * rho + d ^ 2 * s) by (intros d; apply (error_single gamma kv K cur (gp_noise g) test train x 1 (q x) d OK); lia).
  assert (EU : error_variance (lk_cov gamma kv K (feature_count train) cur []) (gp_noise g) test train x 1 (q x) (u x) = 1 - 2 * u x 0%nat * rho + (u x 0%nat) ^ 2 * s).
  { rewrite <- ES. unfold error_variance. cbn [rsum]. replace (delta 0 0) with 1 by reflexivity. ring. }
  destruct (OPT (fun j => rho / s * delta j 0)) as [LE _]. rewrite EU, ES in LE.
  assert (U0 : u x 0%nat = rho / s).
  { assert (Q : 1 - 2 * u x 0%nat * rho + u x 0%nat ^ 2 * s - (1 - 2 * (rho / s) * rho + (rho / s) ^ 2 * s) = s * (u x 0%nat - rho / s) ^ 2) by (field; lra).
    set (d := u x 0%nat - rho / s) in *. assert (d ^ 2 <= 0) by (apply Rmult_le_reg_l with s; [exact S0|lra]). assert (d = 0) by nra. unfold d in *. lra. }
  assert (L : at_ mean' (x :: e) = at_ mean (x :: e) + c * (rho / s)).
  { rewrite (DM e He'), (MU e He'). cbn [rsum]. unfold ones. cbn [at_]. rewrite U0. ring. }
  split; [exact L|]. rewrite L. pose proof (cov_one_iff K cur test train x (q x 0%nat) OK) as I1. fold rho in I1.
  assert (R1 : 0 <= rho <= 1) by apply (lk_le_1 gamma kv K _ cur _ OK). split.
  - intros H. destruct (Req_dec c 0) as [Z|NZ]; [left; exact Z|right].
    assert (T : rho / s = 1) by (apply (Rmult_eq_reg_l c); [lra|exact NZ]).
    assert (rho = s) by (unfold Rdiv in T; apply (f_equal (fun t => t * s)) in T; rewrite Rmult_assoc, Rinv_l in T by lra; lra).
    split; [unfold s in *; lra|]. apply I1. unfold s in *. lra.
  - intros [->|[Z SR]]; [ring|]. apply I1 in SR. unfold s. rewrite SR, Z. field.
Qed.
End Origin.
