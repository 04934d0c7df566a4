(** C12: positive noise makes every solve well posed; C14: null noise is zero noise. *)
From Coq Require Import Lia Lra.
From Verif Require Import Base BaseFacts NdModel NdFacts RSum LinAlgModel LinAlgSpec LinAlgFacts
  GPModel GPProofs NoiseModel NoiseProofs MuyGPSModel GPSpec MuyGPSProofs GPTheorems ScaleSpec ScaleProofs.
Local Open Scope R_scope.

Lemma plus_diag_pd n A d : psd n A -> (forall i, (i < n)%nat -> 0 < d i) -> pd n (plus_diag A d).
Proof.
  intros Hp Hd x Hx. pose proof (psd_plus_diag_pd n A d Hp Hd x Hx) as H.
  rewrite (quad_ext n (plus_diag A d) (fun i j => A i j + delta i j * d i) x x); auto.
  intros i j Hi Hj. unfold plus_diag, delta. destruct (Nat.eqb i j); ring.
Qed.

Lemma plus_diag_sym n A d : symmetric n A -> symmetric n (plus_diag A d).
Proof.
  intros H i j Hi Hj. unfold plus_diag. rewrite (H i j) by auto. rewrite (Nat.eqb_sym j i).
  destruct (Nat.eqb_spec i j) as [->|]; auto.
Qed.

Lemma unravel2 p n a : (0 < n)%nat -> unravel [p; n] a = [(a / n)%nat; (a mod n)%nat].
Proof. intros Hn. cbn [unravel]. rewrite nprod1, nprod0, Nat.div_1_r. reflexivity. Qed.

Lemma Kmat_flat5 K p n x a b : (0 < n)%nat -> Kmat K [p; n] [x] a b = flat5 K n x a b.
Proof. intros Hn. unfold Kmat, flat5. rewrite !unravel2 by auto. reflexivity. Qed.

Lemma divmod_lt p n a : (a < p * n)%nat -> (0 < n)%nat /\ (a / n < p)%nat /\ (a mod n < n)%nat.
Proof.
  intros H. assert (0 < n)%nat by nia. split; auto. split.
  - apply Nat.div_lt_upper_bound; lia.
  - apply Nat.mod_upper_bound; lia.
Qed.

Section T.
Variable ls : lsolver.
Hypothesis Hls : exact_solver ls.

Lemma c12_predict g kw Kin Kcross T b n ex :
  noise_fits (gp_noise g) b n -> shape Kin = [b; n; n] -> shape Kcross = [b; n] -> shape T = b :: n :: ex ->
  no_coincidence ex [n] -> shape (gp_Kout g) = [] ->
  (forall x i, (x < b)%nat -> (i < n)%nat -> 0 < noise_at (gp_noise g) kw x i) ->
  (forall x, (x < b)%nat -> psd n (rowmat Kin x)) ->
  (exists t, gp_posterior_mean ls g Kin Kcross T kw = Ok t) /\
  (exists v, gp_opt_variance ls g Kin Kcross kw = Ok v) /\
  (forall x, (x < b)%nat -> symmetric n (rowmat Kin x) ->
     symmetric n (plus_diag (rowmat Kin x) (noise_at (gp_noise g) kw x))).
Proof.
  intros Hf HK HC HT Hnc HO Hpos Hpsd.
  assert (Hns : forall x, (x < b)%nat -> nonsingular n (plus_diag (rowmat Kin x) (noise_at (gp_noise g) kw x))).
  { intros x Hx. apply pd_nonsingular, plus_diag_pd; auto. }
  split; [|split].
  - destruct (gp_mean_total ls Hls (gp_noise g) kw Kin Kcross T b n ex) as (t & Et & _); auto. exists t. exact Et.
  - apply (gp_var_total ls Hls (gp_noise g) kw Kin Kcross (gp_Kout g) b n); auto.
  - intros x Hx. apply plus_diag_sym.
Qed.

(** Multivariate (five-axis) kernels: homoscedastic and shear noise. *)
Lemma c12_flat5 K Kin d b p n :
  (0 < n)%nat -> shape Kin = [b; p; n; p; n] ->
  (forall x i j k l, (x < b)%nat -> (i < p)%nat -> (j < n)%nat -> (k < p)%nat -> (l < n)%nat ->
      at_ K [x; i; j; k; l] = at_ Kin [x; i; j; k; l] + (if Nat.eqb i k && Nat.eqb j l then d i else 0)) ->
  (forall i, (i < p)%nat -> 0 < d i) ->
  (forall x, (x < b)%nat -> psd (p * n) (flat5 Kin n x)) ->
  forall x, (x < b)%nat -> pd (p * n) (flat5 K n x).
Proof.
  intros Hn HK HKv Hd Hpsd x Hx.
  assert (E : forall a c, (a < p * n)%nat -> (c < p * n)%nat ->
     flat5 K n x a c = plus_diag (flat5 Kin n x) (fun a => d (a / n)%nat) a c).
  { intros a c Ha Hc. destruct (divmod_lt p n a Ha) as (_ & H1 & H2). destruct (divmod_lt p n c Hc) as (_ & H3 & H4).
    unfold flat5 at 1, plus_diag, flat5. rewrite HKv by auto. f_equal.
    rewrite <- (flat_eqb p n) by auto.
    replace (a / n * n + a mod n)%nat with a by (pose proof (Nat.div_mod a n); lia).
    replace (c / n * n + c mod n)%nat with c by (pose proof (Nat.div_mod c n); lia).
    reflexivity. }
  intros y Hy. rewrite (quad_ext _ _ _ y y E) by auto.
  apply plus_diag_pd; auto. intros i Hi. apply Hd. apply (divmod_lt p n i Hi).
Qed.

Lemma c12_multivariate g Kin Kcross T b p n outs ex v :
  (gp_noise g = HomoscedasticNoise v \/ (gp_noise g = ShearNoise33 v /\ p = 3%nat)) -> 0 < v ->
  (0 < n)%nat -> shape Kin = [b; p; n; p; n] -> shape Kcross = [b; p; n] ++ outs -> shape T = [b; p; n] ++ ex ->
  no_coincidence ex [p; n] -> shape (gp_Kout g) = outs ++ outs ->
  (forall x, (x < b)%nat -> psd (p * n) (flat5 Kin n x)) ->
  (exists t, gp_posterior_mean ls g Kin Kcross T None = Ok t /\ shape t = b :: outs ++ ex) /\
  (exists w, gp_opt_variance ls g Kin Kcross None = Ok w /\ shape w = b :: outs ++ outs).
Proof.
  intros Hm Hv Hn HK HC HT Hnc HO Hpsd.
  assert (HP : exists K, perturb (gp_noise g) Kin None = Ok K /\ shape K = [b; p; n; p; n] /\
    exists d, (forall i, (i < p)%nat -> 0 < d i) /\
    forall x i j k l, (x < b)%nat -> (i < p)%nat -> (j < n)%nat -> (k < p)%nat -> (l < n)%nat ->
      at_ K [x; i; j; k; l] = at_ Kin [x; i; j; k; l] + (if Nat.eqb i k && Nat.eqb j l then d i else 0)).
  { destruct Hm as [Hm|[Hm Hp]]; rewrite Hm; cbn [perturb].
    - destruct (homoscedastic5 Kin v b p n HK) as (K & EK & SK & HKv).
      exists K. split; auto. split; auto. exists (fun _ => v). auto.
    - subst p. destruct (shear33 Kin v b n HK) as (K & EK & SK & HKv).
      exists K. split; auto. split; auto. exists (fun i => if Nat.eqb i 0 then 2 * v else v). split; auto.
      intros i Hi. destruct (Nat.eqb i 0); lra. }
  destruct HP as (K & EK & SK & d & Hd & HKv).
  pose proof (c12_flat5 K Kin d b p n Hn HK HKv Hd Hpsd) as Hpd.
  assert (Hns : forall x, inb [b] x -> nonsingular (nprod [p; n]) (Kmat K [p; n] x)).
  { intros x Hx. apply inb_inv1 in Hx as (x' & -> & Hx). rewrite nprod2.
    apply (nonsingular_ext _ (flat5 K n x')).
    - intros; symmetry; apply Kmat_flat5; auto.
    - apply pd_nonsingular; auto. }
  split.
  - unfold gp_posterior_mean. rewrite EK; cbn [bind].
    destruct (posterior_mean_total ls Hls K Kcross T [b] [p; n] outs ex) as [t Et]; auto; [discriminate|].
    exists t. split; auto.
    destruct (posterior_mean_correct ls Hls K Kcross T [b] [p; n] outs ex t) as [St _]; auto. discriminate.
  - unfold gp_opt_variance. rewrite EK; cbn [bind].
    destruct (diagonal_variance_total ls Hls K Kcross (gp_Kout g) [b] [p; n] outs) as [w Ew]; auto.
    exists w. split; auto.
    destruct (diagonal_variance_correct ls Hls K Kcross (gp_Kout g) [b] [p; n] outs w) as [Sw _]; auto.
Qed.

(** C14: null noise predicts as zero homoscedastic noise. *)
Lemma c14_mean Kin Kcross T b n ex t t' g g' :
  gp_noise g = NullNoise -> gp_noise g' = HomoscedasticNoise 0 ->
  shape Kin = [b; n; n] -> shape Kcross = [b; n] -> shape T = b :: n :: ex -> no_coincidence ex [n] ->
  gp_posterior_mean ls g Kin Kcross T None = Ok t ->
  gp_posterior_mean ls g' Kin Kcross T None = Ok t' ->
  nd_eq t t'.
Proof.
  intros Hg Hg' HK HC HT Hnc E E'. unfold gp_posterior_mean in *. rewrite Hg in E. rewrite Hg' in E'.
  destruct (gp_mean_inv ls Hls NullNoise None _ _ _ _ _ _ _ I HK HC HT Hnc E) as [S1 H1].
  destruct (gp_mean_inv ls Hls (HomoscedasticNoise 0) None _ _ _ _ _ _ _ I HK HC HT Hnc E') as [S2 H2].
  split; [congruence|]. rewrite S1. intros idx Hidx.
  apply inb_inv_cons in Hidx as (x & e & -> & Hx & He).
  destruct (H1 x Hx) as (Hns & w1 & Hw1 & V1). destruct (H2 x Hx) as (_ & w2 & Hw2 & V2).
  rewrite (V1 e He), (V2 e He). apply rsum_ext; intros j Hj. f_equal.
  exact (solves_unique n _ w1 w2 _ Hns Hw1 Hw2 j Hj).
Qed.

Lemma c14_mean_total Kin Kcross T b n ex g g' t' :
  gp_noise g = NullNoise -> gp_noise g' = HomoscedasticNoise 0 ->
  shape Kin = [b; n; n] -> shape Kcross = [b; n] -> shape T = b :: n :: ex -> no_coincidence ex [n] ->
  gp_posterior_mean ls g' Kin Kcross T None = Ok t' ->
  exists t, gp_posterior_mean ls g Kin Kcross T None = Ok t.
Proof.
  intros Hg Hg' HK HC HT Hnc E'. unfold gp_posterior_mean in *. rewrite Hg. rewrite Hg' in E'.
  destruct (gp_mean_inv ls Hls (HomoscedasticNoise 0) None _ _ _ _ _ _ _ I HK HC HT Hnc E') as [S2 H2].
  destruct (gp_mean_total ls Hls NullNoise None Kin Kcross T b n ex) as (t & Et & _); cbn; auto.
  - intros x Hx. apply (H2 x Hx).
  - exists t. exact Et.
Qed.

Lemma c14_var Kin Kcross b n t t' g g' :
  gp_noise g = NullNoise -> gp_noise g' = HomoscedasticNoise 0 -> gp_Kout g = gp_Kout g' ->
  gp_var_scale g = gp_var_scale g' ->
  shape Kin = [b; n; n] -> shape Kcross = [b; n] -> shape (gp_Kout g) = [] ->
  gp_posterior_variance ls g Kin Kcross = Ok t ->
  gp_posterior_variance ls g' Kin Kcross = Ok t' ->
  nd_eq t t'.
Proof.
  intros Hg Hg' HO' Hsc HK HC HO E E'. unfold gp_posterior_variance, gp_opt_variance in *.
  rewrite Hg in E. rewrite Hg', <- HO' in E'.
  apply bind_ok in E as (v & Ev & E). inversion E; subst t; clear E.
  apply bind_ok in E' as (v' & Ev' & E'). inversion E'; subst t'; clear E'.
  destruct (gp_var_inv ls Hls NullNoise None _ _ _ _ _ _ I HK HC HO Ev) as [S1 H1].
  destruct (gp_var_inv ls Hls (HomoscedasticNoise 0) None _ _ _ _ _ _ I HK HC HO Ev') as [S2 H2].
  split; [cbn [ndmap shape]; congruence|]. cbn [ndmap shape at_]. rewrite S1. intros idx Hidx.
  apply inb_inv1 in Hidx as (x & -> & Hx). rewrite Hsc. f_equal.
  destruct (H1 x Hx) as (Hns & w1 & Hw1 & V1). destruct (H2 x Hx) as (_ & w2 & Hw2 & V2).
  rewrite V1, V2. f_equal. apply dot_ext; auto. intros j Hj.
  exact (solves_unique n _ w1 w2 _ Hns Hw1 Hw2 j Hj).
Qed.
End T.
