(** Proofs of the GP properties C10-C12, C17-C24, C33. *)
From Coq Require Import Lia Lra.
From Verif Require Import Base BaseFacts NdModel NdFacts RSum LinAlgModel LinAlgSpec LinAlgFacts
  GPModel GPProofs NoiseModel NoiseProofs MuyGPSModel GPSpec MuyGPSProofs.
Local Open Scope R_scope.

Lemma perturb3 m kw Kin b n : noise_fits m b n -> shape Kin = [b; n; n] ->
  exists K, perturb m Kin kw = Ok K /\ shape K = [b; n; n] /\
    forall x i j, (x < b)%nat -> (i < n)%nat -> (j < n)%nat ->
      at_ K [x; i; j] = at_ Kin [x; i; j] + (if Nat.eqb i j then noise_at m kw x i else 0).
Proof.
  intros Hf Hs. destruct m as [v|t|v|]; simpl in *.
  - apply homoscedastic3; auto.
  - destruct Hf as (Ht & Hb & Hn). apply heteroscedastic3; auto.
  - contradiction.
  - exists Kin. split; [auto|]. split; [auto|]. intros. destruct (Nat.eqb i j); ring.
Qed.

Lemma no_coincidence_nil n : no_coincidence [] [n].
Proof. split; simpl; [lia|intros k Hk; lia]. Qed.
Lemma no_coincidence_1 r n : r <> n -> no_coincidence [r] [n].
Proof.
  intros H; split; simpl; [lia|]. intros k Hk. destruct k; [auto|lia].
Qed.

Section T.
Variable ls : lsolver.
Hypothesis Hls : exact_solver ls.

Lemma gp_mean_total m kw Kin Kcross T b n ex :
  noise_fits m b n -> shape Kin = [b; n; n] -> shape Kcross = [b; n] -> shape T = b :: n :: ex ->
  no_coincidence ex [n] ->
  (forall x, (x < b)%nat -> nonsingular n (plus_diag (rowmat Kin x) (noise_at m kw x))) ->
  exists t, (let! K := perturb m Kin kw in posterior_mean ls K Kcross T) = Ok t /\
    shape t = b :: ex /\
    forall x e, (x < b)%nat -> inb ex e ->
      kriging n (plus_diag (rowmat Kin x) (noise_at m kw x)) (rowvec Kcross x)
              (fun j => at_ T (x :: j :: e)) (at_ t (x :: e)).
Proof.
  intros Hf HK HC HT Hnc Hns.
  destruct (perturb3 m kw Kin b n Hf HK) as (K & EK & SK & HKv). rewrite EK; cbn [bind].
  destruct (mean_total ls Hls K Kcross T b n ex) as [t Et]; auto.
  { intros x Hx. apply (nonsingular_ext n (plus_diag (rowmat Kin x) (noise_at m kw x))); auto.
    intros i j Hi Hj. unfold rowmat, plus_diag. rewrite HKv; auto. }
  exists t. split; auto.
  destruct (mean_char ls Hls _ _ _ _ _ _ _ SK HC HT Hnc Et) as [St Hv]. split; auto.
  intros x e Hx He. destruct (Hv x Hx) as (_ & w & Hw & Hval). exists w. split; [|apply (Hval e He)].
  apply (solves_ext n (rowmat K x)); auto. intros i j Hi Hj. unfold rowmat, plus_diag. rewrite HKv; auto.
Qed.

Lemma gp_mean_inv m kw Kin Kcross T b n ex t :
  noise_fits m b n -> shape Kin = [b; n; n] -> shape Kcross = [b; n] -> shape T = b :: n :: ex ->
  no_coincidence ex [n] ->
  (let! K := perturb m Kin kw in posterior_mean ls K Kcross T) = Ok t ->
    shape t = b :: ex /\
    forall x, (x < b)%nat -> nonsingular n (plus_diag (rowmat Kin x) (noise_at m kw x)) /\
    exists w, solves n (plus_diag (rowmat Kin x) (noise_at m kw x)) w (rowvec Kcross x) /\
    forall e, inb ex e -> at_ t (x :: e) = rsum n (fun j => w j * at_ T (x :: j :: e)).
Proof.
  intros Hf HK HC HT Hnc.
  destruct (perturb3 m kw Kin b n Hf HK) as (K & EK & SK & HKv). rewrite EK; cbn [bind].
  intros Et.
  destruct (mean_char ls Hls _ _ _ _ _ _ _ SK HC HT Hnc Et) as [St Hv]. split; auto.
  intros x Hx. destruct (Hv x Hx) as (Hn & w & Hw & Hval).
  assert (E : forall i j, (i < n)%nat -> (j < n)%nat ->
     rowmat K x i j = plus_diag (rowmat Kin x) (noise_at m kw x) i j).
  { intros i j Hi Hj. unfold rowmat, plus_diag. rewrite HKv; auto. }
  split; [apply (nonsingular_ext n (rowmat K x)); auto|].
  exists w. split; auto. apply (solves_ext n (rowmat K x)); auto.
Qed.

(** C17: ordinary (batch, nn, response) targets. *)
Lemma c17_mean3 g kw Kin Kcross T b n r :
  noise_fits (gp_noise g) b n -> shape Kin = [b; n; n] -> shape Kcross = [b; n] -> shape T = [b; n; r] ->
  r <> n ->
  (forall x, (x < b)%nat -> nonsingular n (plus_diag (rowmat Kin x) (noise_at (gp_noise g) kw x))) ->
  exists t, gp_posterior_mean ls g Kin Kcross T kw = Ok t /\ shape t = [b; r] /\
    forall x s, (x < b)%nat -> (s < r)%nat ->
      kriging n (plus_diag (rowmat Kin x) (noise_at (gp_noise g) kw x)) (rowvec Kcross x)
              (fun j => at_ T [x; j; s]) (at_ t [x; s]).
Proof.
  intros Hf HK HC HT Hr Hns.
  destruct (gp_mean_total (gp_noise g) kw Kin Kcross T b n [r]) as (t & Et & St & Hv); auto.
  { apply no_coincidence_1; auto. }
  exists t. split; [exact Et|]. split; [auto|]. intros x s Hx Hs.
  apply (Hv x [s]); auto. apply inb1; auto.
Qed.

Lemma c17_mean2 g kw Kin Kcross T b n :
  noise_fits (gp_noise g) b n -> shape Kin = [b; n; n] -> shape Kcross = [b; n] -> shape T = [b; n] ->
  (forall x, (x < b)%nat -> nonsingular n (plus_diag (rowmat Kin x) (noise_at (gp_noise g) kw x))) ->
  exists t, gp_posterior_mean ls g Kin Kcross T kw = Ok t /\ shape t = [b] /\
    forall x, (x < b)%nat ->
      kriging n (plus_diag (rowmat Kin x) (noise_at (gp_noise g) kw x)) (rowvec Kcross x)
              (rowvec T x) (at_ t [x]).
Proof.
  intros Hf HK HC HT Hns.
  destruct (gp_mean_total (gp_noise g) kw Kin Kcross T b n []) as (t & Et & St & Hv); auto.
  { apply no_coincidence_nil. }
  exists t. split; [exact Et|]. split; [auto|]. intros x Hx.
  apply (Hv x []); auto. constructor.
Qed.

(** C18: response_count = nn_count is not supported. *)
Lemma c18_refuted Kin Kcross T b n :
  shape Kin = [b; n; n] -> shape Kcross = [b; n] -> shape T = [b; n; n] -> (b * n * n <> 1)%nat ->
  posterior_mean ls Kin Kcross T = Err ValueError.
Proof.
  intros HK HC HT Hn. unfold posterior_mean. rewrite HK, HC, HT.
  unfold find_matching_ndim. cbn [List.length firstn Nat.eqb combine filter fst snd].
  rewrite !Nat.eqb_refl. cbn [bind List.length skipn app].
  unfold slice_to_neg. cbn [List.length Nat.mul Nat.add Nat.eqb app skipn].
  rewrite nprod0.
  destruct (reshape_ok T [1%nat; nprod [b; n; n]]) as [Tf ETf].
  { rewrite HT, !nprod_cons, nprod0; lia. }
  rewrite ETf; cbn [bind]. rewrite (reshape_err Kin [1%nat; 1%nat]); auto.
  rewrite HK, !nprod_cons, nprod0. lia.
Qed.

(** C19: linearity. *)
Lemma c19_linear g kw Kin Kcross T1 T2 T b n ex t1 t2 a c :
  noise_fits (gp_noise g) b n -> shape Kin = [b; n; n] -> shape Kcross = [b; n] ->
  shape T1 = b :: n :: ex -> shape T2 = b :: n :: ex -> shape T = b :: n :: ex ->
  no_coincidence ex [n] ->
  (forall idx, inb (b :: n :: ex) idx -> at_ T idx = a * at_ T1 idx + c * at_ T2 idx) ->
  gp_posterior_mean ls g Kin Kcross T1 kw = Ok t1 ->
  gp_posterior_mean ls g Kin Kcross T2 kw = Ok t2 ->
  exists t, gp_posterior_mean ls g Kin Kcross T kw = Ok t /\ shape t = b :: ex /\
    forall idx, inb (b :: ex) idx -> at_ t idx = a * at_ t1 idx + c * at_ t2 idx.
Proof.
  intros Hf HK HC HT1 HT2 HT Hnc Hlin E1 E2.
  destruct (gp_mean_inv _ _ _ _ _ _ _ _ _ Hf HK HC HT1 Hnc E1) as [S1 H1].
  destruct (gp_mean_inv _ _ _ _ _ _ _ _ _ Hf HK HC HT2 Hnc E2) as [S2 H2].
  destruct (gp_mean_total (gp_noise g) kw Kin Kcross T b n ex) as (t & Et & St & Hv); auto.
  { intros x Hx. apply (H1 x Hx). }
  exists t. split; [exact Et|]. split; auto. intros idx Hidx.
  apply inb_inv_cons in Hidx as (x & e & -> & Hx & He).
  destruct (H1 x Hx) as (Hns & w1 & Hw1 & V1). destruct (H2 x Hx) as (_ & w2 & Hw2 & V2).
  destruct (Hv x e Hx He) as (w & Hw & V).
  rewrite (V1 e He), (V2 e He), V. unfold dot. rewrite <- !rsum_scal, <- rsum_plus.
  apply rsum_ext; intros j Hj.
  rewrite <- (solves_unique n _ w w1 _ Hns Hw Hw1 j Hj), <- (solves_unique n _ w w2 _ Hns Hw Hw2 j Hj).
  rewrite Hlin by (apply inb_cons; split; auto; apply inb_cons; split; auto). ring.
Qed.

(** C19: locality: equal row data give equal outputs, whatever the rest of the batch is. *)
Lemma c19_local m m' kw kw' Kin Kcross T t Kin' Kcross' T' t' b b' n ex x x' :
  noise_fits m b n -> noise_fits m' b' n ->
  shape Kin = [b; n; n] -> shape Kcross = [b; n] -> shape T = b :: n :: ex ->
  shape Kin' = [b'; n; n] -> shape Kcross' = [b'; n] -> shape T' = b' :: n :: ex ->
  no_coincidence ex [n] -> (x < b)%nat -> (x' < b')%nat ->
  (forall i j, (i < n)%nat -> (j < n)%nat -> at_ Kin [x; i; j] = at_ Kin' [x'; i; j]) ->
  (forall i, (i < n)%nat -> noise_at m kw x i = noise_at m' kw' x' i) ->
  (forall i, (i < n)%nat -> at_ Kcross [x; i] = at_ Kcross' [x'; i]) ->
  (forall i e, (i < n)%nat -> inb ex e -> at_ T (x :: i :: e) = at_ T' (x' :: i :: e)) ->
  (let! K := perturb m Kin kw in posterior_mean ls K Kcross T) = Ok t ->
  (let! K := perturb m' Kin' kw' in posterior_mean ls K Kcross' T') = Ok t' ->
  forall e, inb ex e -> at_ t (x :: e) = at_ t' (x' :: e).
Proof.
  intros Hf Hf' HK HC HT HK' HC' HT' Hnc Hx Hx' EK EN EC ET E E' e He.
  destruct (gp_mean_inv _ _ _ _ _ _ _ _ _ Hf HK HC HT Hnc E) as [S1 H1].
  destruct (gp_mean_inv _ _ _ _ _ _ _ _ _ Hf' HK' HC' HT' Hnc E') as [S2 H2].
  destruct (H1 x Hx) as (Hns & w1 & Hw1 & V1). destruct (H2 x' Hx') as (Hns' & w2 & Hw2 & V2).
  rewrite (V1 e He), (V2 e He). apply rsum_ext; intros j Hj. rewrite ET by auto. f_equal.
  refine (solves_unique n _ w1 w2 _ Hns Hw1 _ j Hj).
  intros i Hi. specialize (Hw2 i Hi). unfold rowvec in *. rewrite EC by auto. rewrite <- Hw2.
  apply rsum_ext; intros k Hk. unfold plus_diag, rowmat. rewrite EK by auto.
  rewrite EN by auto. reflexivity.
Qed.

(** C20: reordering the neighbours. *)
Lemma solves_perm n A w k p : perm_on n p -> solves n A w k ->
  solves n (fun i j => A (p i) (p j)) (fun j => w (p j)) (fun i => k (p i)).
Proof.
  intros Hp Hs i Hi. rewrite (rsum_perm n p (fun j => A (p i) j * w j)) by auto.
  apply Hs. apply Hp; auto.
Qed.

Lemma plus_diag_perm n p A d i j : perm_on n p -> (i < n)%nat -> (j < n)%nat ->
  plus_diag (fun i j => A (p i) (p j)) (fun i => d (p i)) i j = plus_diag A d (p i) (p j).
Proof.
  intros [Hb Hinj] Hi Hj. unfold plus_diag.
  destruct (Nat.eqb_spec i j) as [->|Hne]; [rewrite Nat.eqb_refl; auto|].
  destruct (Nat.eqb_spec (p i) (p j)) as [E|E]; auto. apply Hinj in E; auto; contradiction.
Qed.

Lemma c20_mean_perm m m' kw Kin Kcross T Kin' Kcross' T' b n ex p t t' :
  noise_fits m b n -> noise_fits m' b n ->
  shape Kin = [b; n; n] -> shape Kcross = [b; n] -> shape T = b :: n :: ex ->
  shape Kin' = [b; n; n] -> shape Kcross' = [b; n] -> shape T' = b :: n :: ex ->
  no_coincidence ex [n] ->
  (forall x, (x < b)%nat -> perm_on n (p x)) ->
  (forall x i j, (x < b)%nat -> (i < n)%nat -> (j < n)%nat -> at_ Kin' [x; i; j] = at_ Kin [x; p x i; p x j]) ->
  (forall x i, (x < b)%nat -> (i < n)%nat -> noise_at m' kw x i = noise_at m kw x (p x i)) ->
  (forall x i, (x < b)%nat -> (i < n)%nat -> at_ Kcross' [x; i] = at_ Kcross [x; p x i]) ->
  (forall x i e, (x < b)%nat -> (i < n)%nat -> inb ex e -> at_ T' (x :: i :: e) = at_ T (x :: p x i :: e)) ->
  (let! K := perturb m Kin kw in posterior_mean ls K Kcross T) = Ok t ->
  (let! K := perturb m' Kin' kw in posterior_mean ls K Kcross' T') = Ok t' ->
  nd_eq t t'.
Proof.
  intros Hf Hf' HK HC HT HK' HC' HT' Hnc Hp EK EN EC ET E E'.
  destruct (gp_mean_inv _ _ _ _ _ _ _ _ _ Hf HK HC HT Hnc E) as [S1 H1].
  destruct (gp_mean_inv _ _ _ _ _ _ _ _ _ Hf' HK' HC' HT' Hnc E') as [S2 H2].
  split; [congruence|]. rewrite S1. intros idx Hidx.
  apply inb_inv_cons in Hidx as (x & e & -> & Hx & He).
  destruct (H1 x Hx) as (Hns & w1 & Hw1 & V1). destruct (H2 x Hx) as (Hns' & w2 & Hw2 & V2).
  rewrite (V1 e He), (V2 e He).
  rewrite <- (rsum_perm n (p x) (fun j => w1 j * at_ T (x :: j :: e))) by auto.
  apply rsum_ext; intros j Hj. rewrite ET by auto. f_equal.
  refine (solves_unique n _ (fun j => w1 (p x j)) w2 (rowvec Kcross' x) Hns' _ Hw2 j Hj).
  pose proof (solves_perm n _ _ _ (p x) (Hp x Hx) Hw1) as Hs.
  intros i Hi. specialize (Hs i Hi). cbv beta in Hs. unfold rowvec in *. rewrite EC by auto. rewrite <- Hs.
  apply rsum_ext; intros k Hk.
  rewrite <- (plus_diag_perm n (p x)) by auto. unfold plus_diag, rowmat. rewrite EK, EN by auto. reflexivity.
Qed.

(** Variance with noise. *)
Lemma gp_var_inv m kw Kin Kcross Kout b n t :
  noise_fits m b n -> shape Kin = [b; n; n] -> shape Kcross = [b; n] -> shape Kout = [] ->
  (let! K := perturb m Kin kw in diagonal_variance ls K Kcross Kout 1) = Ok t ->
  shape t = [b] /\
  forall x, (x < b)%nat -> nonsingular n (plus_diag (rowmat Kin x) (noise_at m kw x)) /\
    exists w, solves n (plus_diag (rowmat Kin x) (noise_at m kw x)) w (rowvec Kcross x) /\
      at_ t [x] = at_ Kout [] - dot n w (rowvec Kcross x).
Proof.
  intros Hf HK HC HO.
  destruct (perturb3 m kw Kin b n Hf HK) as (K & EK & SK & HKv). rewrite EK; cbn [bind].
  intros Et. destruct (variance_char ls Hls _ _ _ _ _ _ SK HC HO Et) as [St Hv]. split; auto.
  intros x Hx. destruct (Hv x Hx) as (Hn & w & Hw & Hval).
  assert (E : forall i j, (i < n)%nat -> (j < n)%nat ->
     rowmat K x i j = plus_diag (rowmat Kin x) (noise_at m kw x) i j).
  { intros i j Hi Hj. unfold rowmat, plus_diag. rewrite HKv; auto. }
  split; [apply (nonsingular_ext n (rowmat K x)); auto|].
  exists w. split; auto. apply (solves_ext n (rowmat K x)); auto.
Qed.

Lemma gp_var_total m kw Kin Kcross Kout b n :
  noise_fits m b n -> shape Kin = [b; n; n] -> shape Kcross = [b; n] -> shape Kout = [] ->
  (forall x, (x < b)%nat -> nonsingular n (plus_diag (rowmat Kin x) (noise_at m kw x))) ->
  exists t, (let! K := perturb m Kin kw in diagonal_variance ls K Kcross Kout 1) = Ok t.
Proof.
  intros Hf HK HC HO Hns.
  destruct (perturb3 m kw Kin b n Hf HK) as (K & EK & SK & HKv). rewrite EK; cbn [bind].
  apply (variance_total ls Hls K Kcross Kout b n); auto.
  intros x Hx. apply (nonsingular_ext n (plus_diag (rowmat Kin x) (noise_at m kw x))); auto.
  intros i j Hi Hj. unfold rowmat, plus_diag. rewrite HKv; auto.
Qed.

Lemma c20_var_perm m m' kw Kin Kcross Kin' Kcross' Kout b n p t t' :
  noise_fits m b n -> noise_fits m' b n ->
  shape Kin = [b; n; n] -> shape Kcross = [b; n] -> shape Kout = [] ->
  shape Kin' = [b; n; n] -> shape Kcross' = [b; n] ->
  (forall x, (x < b)%nat -> perm_on n (p x)) ->
  (forall x i j, (x < b)%nat -> (i < n)%nat -> (j < n)%nat -> at_ Kin' [x; i; j] = at_ Kin [x; p x i; p x j]) ->
  (forall x i, (x < b)%nat -> (i < n)%nat -> noise_at m' kw x i = noise_at m kw x (p x i)) ->
  (forall x i, (x < b)%nat -> (i < n)%nat -> at_ Kcross' [x; i] = at_ Kcross [x; p x i]) ->
  (let! K := perturb m Kin kw in diagonal_variance ls K Kcross Kout 1) = Ok t ->
  (let! K := perturb m' Kin' kw in diagonal_variance ls K Kcross' Kout 1) = Ok t' ->
  nd_eq t t'.
Proof.
  intros Hf Hf' HK HC HO HK' HC' Hp EK EN EC E E'.
  destruct (gp_var_inv _ _ _ _ _ _ _ _ Hf HK HC HO E) as [S1 H1].
  destruct (gp_var_inv _ _ _ _ _ _ _ _ Hf' HK' HC' HO E') as [S2 H2].
  split; [congruence|]. rewrite S1. intros idx Hidx.
  apply inb_inv1 in Hidx as (x & -> & Hx).
  destruct (H1 x Hx) as (Hns & w1 & Hw1 & V1). destruct (H2 x Hx) as (Hns' & w2 & Hw2 & V2).
  rewrite V1, V2. f_equal. unfold dot.
  rewrite <- (rsum_perm n (p x) (fun j => w1 j * rowvec Kcross x j)) by auto.
  apply rsum_ext; intros j Hj. unfold rowvec at 2. rewrite EC by auto. f_equal.
  refine (solves_unique n _ (fun j => w1 (p x j)) w2 (rowvec Kcross' x) Hns' _ Hw2 j Hj).
  pose proof (solves_perm n _ _ _ (p x) (Hp x Hx) Hw1) as Hs.
  intros i Hi. specialize (Hs i Hi). cbv beta in Hs. unfold rowvec in *. rewrite EC by auto. rewrite <- Hs.
  apply rsum_ext; intros k Hk.
  rewrite <- (plus_diag_perm n (p x)) by auto. unfold plus_diag, rowmat. rewrite EK, EN by auto. reflexivity.
Qed.

(** C21: the Schur-complement bound. *)
Lemma quad_joint n kout k A w :
  quad (S n) (joint kout k A) (fun i => match i with O => 1 | S i' => - w i' end)
  = kout - 2 * dot n w k + quad n A w.
Proof.
  unfold quad. rewrite rsum_S_l, rsum_S_l. cbn [joint].
  assert (E1 : rsum n (fun i => 1 * k i * - w i) = - rsum n (fun i => w i * k i)).
  { rewrite <- rsum_opp. apply rsum_ext; intros; ring. }
  rewrite E1. clear E1.
  rewrite (rsum_ext n (fun i => rsum (S n) _)
     (fun i => - (w i * k i) + rsum n (fun j => w i * A i j * w j))).
  2:{ intros i Hi. rewrite rsum_S_l. cbn [joint]. f_equal; [ring|].
      apply rsum_ext; intros; ring. }
  rewrite rsum_plus, rsum_opp. unfold dot. ring.
Qed.

Lemma c21_bounds n A d k kout w v :
  psd (S n) (joint kout k A) -> (forall i, (i < n)%nat -> 0 <= d i) ->
  solves n (plus_diag A d) w k -> v = kout - dot n w k ->
  0 <= v <= kout.
Proof.
  intros Hp Hd Hw ->.
  assert (HA : 0 <= quad n A w).
  { pose proof (Hp (fun i => match i with O => 0 | S i' => w i' end)) as H.
    unfold quad in H. rewrite rsum_S_l in H.
    rewrite (rsum_ext (S n) (fun j => 0 * _ * _) (fun _ => 0)) in H by (intros; ring).
    rewrite rsum_0 in H.
    rewrite (rsum_ext n (fun i => rsum (S n) _) (fun i => rsum n (fun j => w i * A i j * w j))) in H.
    - unfold quad. lra.
    - intros i Hi. rewrite rsum_S_l. simpl joint. rewrite Rmult_0_r, Rplus_0_l. reflexivity. }
  assert (HD : 0 <= rsum n (fun i => d i * (w i * w i))).
  { apply rsum_nonneg. intros i Hi. specialize (Hd i Hi). nra. }
  assert (E : dot n w k = quad n A w + rsum n (fun i => d i * (w i * w i))).
  { rewrite <- (quad_solves n _ _ _ Hw). rewrite <- quad_diag, <- quad_plus.
    apply quad_ext; auto. intros i j Hi Hj. unfold plus_diag, delta.
    destruct (Nat.eqb i j); ring. }
  pose proof (Hp (fun i => match i with O => 1 | S i' => - w i' end)) as HJ.
  rewrite quad_joint in HJ. split; lra.
Qed.

Lemma c21_variance g Kin Kcross b n t :
  noise_fits (gp_noise g) b n -> shape Kin = [b; n; n] -> shape Kcross = [b; n] -> shape (gp_Kout g) = [] ->
  0 <= gp_var_scale g ->
  (forall x i, (x < b)%nat -> (i < n)%nat -> 0 <= noise_at (gp_noise g) None x i) ->
  (forall x, (x < b)%nat -> psd (S n) (joint (at_ (gp_Kout g) []) (rowvec Kcross x) (rowmat Kin x))) ->
  gp_posterior_variance ls g Kin Kcross = Ok t ->
  shape t = [b] /\ forall x, (x < b)%nat -> 0 <= at_ t [x] <= gp_var_scale g * at_ (gp_Kout g) [].
Proof.
  intros Hf HK HC HO Hs Hd Hp H. unfold gp_posterior_variance, gp_opt_variance in H.
  apply bind_ok in H as (v & Ev & H). inversion H; subst t; clear H.
  destruct (gp_var_inv _ _ _ _ _ _ _ _ Hf HK HC HO Ev) as [S1 H1].
  split; [simpl; auto|]. intros x Hx. simpl.
  destruct (H1 x Hx) as (_ & w & Hw & V).
  destruct (c21_bounds n _ _ _ _ _ _ (Hp x Hx) (fun i Hi => Hd x i Hx Hi) Hw V) as [B1 B2].
  split; [apply Rmult_le_pos; auto|apply Rmult_le_compat_l; auto].
Qed.

(** C22: interpolation. *)
Lemma c22_mean m kw Kin Kcross T b n ex t x j0 e :
  noise_fits m b n -> shape Kin = [b; n; n] -> shape Kcross = [b; n] -> shape T = b :: n :: ex ->
  no_coincidence ex [n] ->
  (let! K := perturb m Kin kw in posterior_mean ls K Kcross T) = Ok t ->
  (x < b)%nat -> (j0 < n)%nat -> inb ex e ->
  (forall i, (i < n)%nat -> noise_at m kw x i = 0) ->
  (forall i, (i < n)%nat -> at_ Kcross [x; i] = at_ Kin [x; i; j0]) ->
  at_ t (x :: e) = at_ T (x :: j0 :: e).
Proof.
  intros Hf HK HC HT Hnc E Hx Hj He Hz Hcol.
  destruct (gp_mean_inv _ _ _ _ _ _ _ _ _ Hf HK HC HT Hnc E) as [S1 H1].
  destruct (H1 x Hx) as (Hns & w & Hw & V). rewrite (V e He).
  rewrite (rsum_ext n _ (fun j => delta j j0 * at_ T (x :: j :: e))).
  - apply rsum_delta; auto.
  - intros j Hjn. f_equal.
    refine (solves_unique n _ w (fun j => delta j j0) _ Hns Hw _ j Hjn).
    intros i Hi. rewrite (rsum_ext n _ (fun j => delta j j0 * plus_diag (rowmat Kin x) (noise_at m kw x) i j))
      by (intros; ring).
    rewrite rsum_delta by auto. unfold plus_diag, rowvec, rowmat. rewrite Hcol, Hz by auto.
    destruct (Nat.eqb i j0); ring.
Qed.

Lemma c22_var m kw Kin Kcross Kout b n t x j0 :
  noise_fits m b n -> shape Kin = [b; n; n] -> shape Kcross = [b; n] -> shape Kout = [] ->
  (let! K := perturb m Kin kw in diagonal_variance ls K Kcross Kout 1) = Ok t ->
  (x < b)%nat -> (j0 < n)%nat ->
  (forall i, (i < n)%nat -> noise_at m kw x i = 0) ->
  (forall i, (i < n)%nat -> at_ Kcross [x; i] = at_ Kin [x; i; j0]) ->
  at_ Kout [] = at_ Kin [x; j0; j0] ->
  at_ t [x] = 0.
Proof.
  intros Hf HK HC HO E Hx Hj Hz Hcol Hko.
  destruct (gp_var_inv _ _ _ _ _ _ _ _ Hf HK HC HO E) as [S1 H1].
  destruct (H1 x Hx) as (Hns & w & Hw & V). rewrite V. unfold dot.
  rewrite (rsum_ext n _ (fun j => delta j j0 * rowvec Kcross x j)).
  - rewrite rsum_delta by auto. unfold rowvec. rewrite Hcol by auto. lra.
  - intros j Hjn. f_equal.
    refine (solves_unique n _ w (fun j => delta j j0) _ Hns Hw _ j Hjn).
    intros i Hi. rewrite (rsum_ext n _ (fun j => delta j j0 * plus_diag (rowmat Kin x) (noise_at m kw x) i j))
      by (intros; ring).
    rewrite rsum_delta by auto. unfold plus_diag, rowvec, rowmat. rewrite Hcol, Hz by auto.
    destruct (Nat.eqb i j0); ring.
Qed.

(** C24: common rescaling of kernel and noise. *)
Lemma c24_mean_scale_invariant m m' kw kw' Kin Kcross Kin' Kcross' T b n ex c t t' :
  noise_fits m b n -> noise_fits m' b n ->
  shape Kin = [b; n; n] -> shape Kcross = [b; n] -> shape T = b :: n :: ex ->
  shape Kin' = [b; n; n] -> shape Kcross' = [b; n] -> no_coincidence ex [n] -> c <> 0 ->
  (forall x i j, (x < b)%nat -> (i < n)%nat -> (j < n)%nat -> at_ Kin' [x; i; j] = c * at_ Kin [x; i; j]) ->
  (forall x i, (x < b)%nat -> (i < n)%nat -> noise_at m' kw' x i = c * noise_at m kw x i) ->
  (forall x i, (x < b)%nat -> (i < n)%nat -> at_ Kcross' [x; i] = c * at_ Kcross [x; i]) ->
  (let! K := perturb m Kin kw in posterior_mean ls K Kcross T) = Ok t ->
  (let! K := perturb m' Kin' kw' in posterior_mean ls K Kcross' T) = Ok t' ->
  nd_eq t t'.
Proof.
  intros Hf Hf' HK HC HT HK' HC' Hnc Hc0 EK EN EC E E'.
  destruct (gp_mean_inv _ _ _ _ _ _ _ _ _ Hf HK HC HT Hnc E) as [S1 H1].
  destruct (gp_mean_inv _ _ _ _ _ _ _ _ _ Hf' HK' HC' HT Hnc E') as [S2 H2].
  split; [congruence|]. rewrite S1. intros idx Hidx.
  apply inb_inv_cons in Hidx as (x & e & -> & Hx & He).
  destruct (H1 x Hx) as (Hns & w1 & Hw1 & V1). destruct (H2 x Hx) as (Hns' & w2 & Hw2 & V2).
  rewrite (V1 e He), (V2 e He). apply rsum_ext; intros j Hj. f_equal.
  refine (solves_unique n _ w1 w2 _ Hns' _ Hw2 j Hj).
  intros i Hi. specialize (Hw1 i Hi). unfold rowvec in *. rewrite EC by auto. rewrite <- Hw1, <- rsum_scal.
  apply rsum_ext; intros k Hk. unfold plus_diag, rowmat. rewrite EK by auto.
  destruct (Nat.eqb i k); [rewrite EN by auto|]; ring.
Qed.
End T.
