(** Univariate GP lemmas. *)
From Coq Require Import Lia Lra.
From Verif Require Import Base BaseFacts NdModel NdFacts RSum LinAlgModel LinAlgSpec LinAlgFacts
  GPModel GPProofs NoiseModel NoiseProofs MuyGPSModel GPSpec.
Local Open Scope R_scope.

Lemma unravel1 n a : unravel [n] a = [a].
Proof. cbn [unravel]. rewrite nprod0, Nat.div_1_r. auto. Qed.

Lemma nonsingular_ext n A A' : (forall i j, (i < n)%nat -> (j < n)%nat -> A i j = A' i j) ->
  nonsingular n A -> nonsingular n A'.
Proof.
  intros HA H x Hx. apply (H x). apply (solves_ext n A'); auto. intros; symmetry; auto.
Qed.

Section S.
Variable ls : lsolver.
Hypothesis Hls : exact_solver ls.

Lemma Kmat_rowmat Kin n x : forall i j, Kmat Kin [n] [x] i j = rowmat Kin x i j.
Proof. intros i j. unfold Kmat, rowmat. rewrite !unravel1. reflexivity. Qed.

(** Nonsingularity is implied by success. *)
Lemma posterior_mean_ok_nonsingular Kin Kcross T b n ex t :
  shape Kin = [b; n; n] -> shape Kcross = [b; n] -> shape T = b :: n :: ex -> no_coincidence ex [n] ->
  posterior_mean ls Kin Kcross T = Ok t ->
  forall x, (x < b)%nat -> nonsingular n (rowmat Kin x).
Proof.
  intros HK HC HT Hnc H x Hx.
  rewrite (posterior_mean_unfold ls Kin Kcross T [b] [n] [] ex) in H; auto; [|discriminate].
  apply bind_ok in H as (Tf & ETf & H). apply bind_ok in H as (Kf & EKf & H).
  apply bind_ok in H as (Cf & ECf & H). apply bind_ok in H as (F & EF & H).
  pose proof (reshape_shape _ _ _ EKf) as SKf. pose proof (reshape_shape _ _ _ ECf) as SCf.
  destruct (np_solve_inv ls _ _ _ _ _ _ SKf SCf EF) as [SF HF].
  destruct (HF [x]) as (Y & EY & _); [apply inb1; auto|].
  assert (Hn : nonsingular (nprod [n]) (slice2 Kf [x])) by (apply (proj2 Hls _ (nprod []) _ (slice2 Cf [x])); eauto).
  rewrite nprod1 in Hn. revert Hn. apply nonsingular_ext. intros i j Hi Hj.
  unfold slice2. rewrite (reshape_flat2 Kin Kf [b] [n] [n] [x] i j); auto.
  - rewrite !unravel1; reflexivity.
  - apply inb1; auto.
  - rewrite nprod1; auto.
  - rewrite nprod1; auto.
Qed.

Lemma mean_char Kin Kcross T b n ex t :
  shape Kin = [b; n; n] -> shape Kcross = [b; n] -> shape T = b :: n :: ex -> no_coincidence ex [n] ->
  posterior_mean ls Kin Kcross T = Ok t ->
  shape t = b :: ex /\
  forall x, (x < b)%nat ->
    nonsingular n (rowmat Kin x) /\
    exists w, solves n (rowmat Kin x) w (rowvec Kcross x) /\
      forall e, inb ex e -> at_ t (x :: e) = rsum n (fun j => w j * at_ T (x :: j :: e)).
Proof.
  intros HK HC HT Hnc H.
  destruct (posterior_mean_correct ls Hls Kin Kcross T [b] [n] [] ex t) as [Hs Hv]; auto; [discriminate|].
  split; [exact Hs|]. intros x Hx.
  split; [eapply posterior_mean_ok_nonsingular; eauto|].
  destruct (Hv [x] []) as (w & Hw & He); [apply inb1; auto|constructor|].
  rewrite nprod1 in *. exists w. split.
  - intros i Hi. specialize (Hw i Hi). cbv beta in Hw. rewrite unravel1 in Hw. cbn [app] in Hw. unfold rowvec. rewrite <- Hw.
    apply rsum_ext; intros j Hj. rewrite Kmat_rowmat; auto.
  - intros e Hin. specialize (He e Hin). cbn [app] in He. rewrite He.
    apply rsum_ext; intros j Hj. rewrite unravel1; auto.
Qed.

Lemma mean_total Kin Kcross T b n ex :
  shape Kin = [b; n; n] -> shape Kcross = [b; n] -> shape T = b :: n :: ex -> no_coincidence ex [n] ->
  (forall x, (x < b)%nat -> nonsingular n (rowmat Kin x)) ->
  exists t, posterior_mean ls Kin Kcross T = Ok t.
Proof.
  intros HK HC HT Hnc Hns.
  apply (posterior_mean_total ls Hls Kin Kcross T [b] [n] [] ex); auto; [discriminate|].
  intros x Hx. apply inb_inv1 in Hx as (x' & -> & Hx). rewrite nprod1.
  apply (nonsingular_ext n (rowmat Kin x')); auto. intros; symmetry; apply Kmat_rowmat.
Qed.

(** The value of one output entry is determined by the row data. *)
Lemma mean_value Kin Kcross T b n ex t x w e :
  shape Kin = [b; n; n] -> shape Kcross = [b; n] -> shape T = b :: n :: ex -> no_coincidence ex [n] ->
  posterior_mean ls Kin Kcross T = Ok t -> (x < b)%nat -> inb ex e ->
  solves n (rowmat Kin x) w (rowvec Kcross x) ->
  at_ t (x :: e) = rsum n (fun j => w j * at_ T (x :: j :: e)).
Proof.
  intros HK HC HT Hnc H Hx He Hw.
  destruct (mean_char _ _ _ _ _ _ _ HK HC HT Hnc H) as [_ Hv].
  destruct (Hv x Hx) as (Hns & w' & Hw' & Hval). rewrite (Hval e He).
  apply rsum_ext; intros j Hj. f_equal. apply (solves_unique n (rowmat Kin x) w' w (rowvec Kcross x)); auto.
Qed.

Lemma variance_char Kin Kcross Kout b n t :
  shape Kin = [b; n; n] -> shape Kcross = [b; n] -> shape Kout = [] ->
  diagonal_variance ls Kin Kcross Kout 1 = Ok t ->
  shape t = [b] /\
  forall x, (x < b)%nat ->
    nonsingular n (rowmat Kin x) /\
    exists w, solves n (rowmat Kin x) w (rowvec Kcross x) /\
      at_ t [x] = at_ Kout [] - dot n w (rowvec Kcross x).
Proof.
  intros HK HC HO H.
  destruct (diagonal_variance_correct ls Hls Kin Kcross Kout [b] [n] [] t) as [Hs Hv]; auto.
  split; [exact Hs|]. intros x Hx. split.
  - change 1%nat with (List.length [b]) in H.
    rewrite (diagonal_variance_unfold ls Kin Kcross Kout [b] [n] []) in H; auto.
    apply bind_ok in H as (Kf & EKf & H).
    apply bind_ok in H as (Cf & ECf & H). apply bind_ok in H as (F & EF & H).
    pose proof (reshape_shape _ _ _ EKf) as SKf. pose proof (reshape_shape _ _ _ ECf) as SCf.
    destruct (np_solve_inv ls _ _ _ _ _ _ SKf SCf EF) as [SF HF].
    destruct (HF [x]) as (Y & EY & _); [apply inb1; auto|].
    assert (Hn : nonsingular (nprod [n]) (slice2 Kf [x])) by (apply (proj2 Hls _ (nprod []) _ (slice2 Cf [x])); eauto).
    rewrite nprod1 in Hn. revert Hn. apply nonsingular_ext. intros i j Hi Hj.
    unfold slice2. rewrite (reshape_flat2 Kin Kf [b] [n] [n] [x] i j); auto.
    + rewrite !unravel1; reflexivity.
    + apply inb1; auto.
    + rewrite nprod1; auto.
    + rewrite nprod1; auto.
  - destruct (Hv [x] []) as (w & Hw & He); [apply inb1; auto|constructor|].
    rewrite nprod1 in *. exists w. split.
    + intros i Hi. specialize (Hw i Hi). cbv beta in Hw. rewrite unravel1 in Hw. cbn [app] in Hw. unfold rowvec. rewrite <- Hw.
      apply rsum_ext; intros j Hj. rewrite Kmat_rowmat; auto.
    + specialize (He [] (Forall2_nil _)). cbn [app] in He. rewrite He. f_equal.
      unfold dot. apply rsum_ext; intros j Hj. rewrite unravel1; auto.
Qed.

Lemma variance_total Kin Kcross Kout b n :
  shape Kin = [b; n; n] -> shape Kcross = [b; n] -> shape Kout = [] ->
  (forall x, (x < b)%nat -> nonsingular n (rowmat Kin x)) ->
  exists t, diagonal_variance ls Kin Kcross Kout 1 = Ok t.
Proof.
  intros HK HC HO Hns. change 1%nat with (List.length [b]).
  apply (diagonal_variance_total ls Hls Kin Kcross Kout [b] [n] []); auto.
  intros x Hx. apply inb_inv1 in Hx as (x' & -> & Hx). rewrite nprod1.
  apply (nonsingular_ext n (rowmat Kin x')); auto. intros; symmetry; apply Kmat_rowmat.
Qed.

Lemma variance_value Kin Kcross Kout b n t x w :
  shape Kin = [b; n; n] -> shape Kcross = [b; n] -> shape Kout = [] ->
  diagonal_variance ls Kin Kcross Kout 1 = Ok t -> (x < b)%nat ->
  solves n (rowmat Kin x) w (rowvec Kcross x) ->
  at_ t [x] = at_ Kout [] - dot n w (rowvec Kcross x).
Proof.
  intros HK HC HO H Hx Hw.
  destruct (variance_char _ _ _ _ _ _ HK HC HO H) as [_ Hv].
  destruct (Hv x Hx) as (Hns & w' & Hw' & Hval). rewrite Hval. f_equal.
  unfold dot. apply rsum_ext; intros j Hj. f_equal.
  apply (solves_unique n (rowmat Kin x) w' w (rowvec Kcross x)); auto.
Qed.

(** ** Analytic scale *)

Lemma atleast_3d_3 {A} (t : nd A) a b c : shape t = [a; b; c] -> atleast_3d t = t.
Proof. unfold atleast_3d. intros ->. auto. Qed.

Lemma edim_refl a : edim a a = Some a.
Proof. unfold edim. rewrite Nat.eqb_refl; auto. Qed.

Lemma eix_lt d i : (i < d)%nat -> eix d i = i.
Proof. unfold eix. destruct (Nat.eqb_spec d 1); lia. Qed.

Lemma unnormalized_char Kin T b n r u :
  shape Kin = [b; n; n] -> shape T = [b; n; r] ->
  analytic_scale_unnormalized ls Kin T = Ok u ->
  (forall x, (x < b)%nat -> (0 < r)%nat -> nonsingular n (rowmat Kin x)) /\
  exists c, (forall x s, (x < b)%nat -> (s < r)%nat ->
      solves n (rowmat Kin x) (c x s) (fun i => at_ T [x; i; s])) /\
    u = rsum b (fun x => rsum r (fun s => dot n (fun i => at_ T [x; i; s]) (c x s))).
Proof.
  intros HK HT. unfold analytic_scale_unnormalized. rewrite (atleast_3d_3 T b n r) by auto.
  intros H. apply bind_ok in H as (X & EX & H). apply bind_ok in H as (e & Ee & H).
  inversion H; subst u; clear H.
  destruct (np_solve_inv ls Kin T X [b] n r HK HT EX) as [SX HX].
  unfold einsum_ijk_ijk in Ee. rewrite HT in Ee. simpl in SX. rewrite SX in Ee.
  rewrite !edim_refl in Ee. inversion Ee; subst e; clear Ee. cbn [shape at_].
  split.
  - intros x Hx Hr. destruct (HX [x]) as (Y & EY & _); [apply inb1; auto|].
    apply (proj2 Hls n r _ (slice2 T [x])). eauto.
  - exists (fun x s i => at_ X [x; i; s]). split.
    + intros x s Hx Hs. destruct (HX [x]) as (Y & EY & HY); [apply inb1; auto|].
      pose proof (proj1 Hls _ _ _ _ _ EY s Hs) as Hsol. intros i Hi.
      specialize (Hsol i Hi). simpl in HY. unfold slice2 in Hsol. simpl in Hsol.
      rewrite <- Hsol. apply rsum_ext; intros j Hj. rewrite HY. reflexivity.
    + rewrite nprod2, rsum_mul. apply rsum_ext; intros x Hx. apply rsum_ext; intros s Hs.
      replace (unravel [b; r] (x * r + s)) with [x; s].
      2:{ rewrite <- (unravel_ravel [b; r] [x; s]) by (apply inb2; auto). f_equal.
          cbn [ravel]. rewrite nprod1, nprod0; lia. }
      unfold dot. apply rsum_ext; intros j Hj. rewrite !eix_lt by auto. reflexivity.
Qed.

Lemma unnormalized_total Kin T b n r :
  shape Kin = [b; n; n] -> shape T = [b; n; r] ->
  (forall x, (x < b)%nat -> nonsingular n (rowmat Kin x)) ->
  exists u, analytic_scale_unnormalized ls Kin T = Ok u.
Proof.
  intros HK HT Hns. unfold analytic_scale_unnormalized. rewrite (atleast_3d_3 T b n r) by auto.
  destruct (np_solve_ok ls Kin T [b] n r HK HT) as [X EX].
  { intros x Hx. apply inb_inv1 in Hx as (x' & -> & Hx). apply Hls.
    apply (nonsingular_ext n (rowmat Kin x')); auto. }
  rewrite EX; cbn [bind].
  destruct (np_solve_inv ls Kin T X [b] n r HK HT EX) as [SX _].
  unfold einsum_ijk_ijk. rewrite HT. simpl in SX. rewrite SX, !edim_refl. cbn [bind]. eauto.
Qed.

Lemma analytic_unfold Kin T b n : shape Kin = [b; n; n] ->
  analytic_scale ls Kin T =
   (let! Kf := reshape Kin [b; n; n] in
    let! Tf := reshape T [b; n; 1%nat] in
    let! u := analytic_scale_unnormalized ls Kf Tf in
    Ok (u / INR (b * n))).
Proof.
  intros HK. unfold analytic_scale, ndim. rewrite HK.
  change ((List.length [b; n; n] - 1) / 2)%nat with 1%nat. cbn [firstn skipn Nat.add].
  rewrite !nprod1. reflexivity.
Qed.

Lemma reshape_same {A} (t t' : nd A) : reshape t (shape t) = Ok t' ->
  forall idx, inb (shape t) idx -> at_ t' idx = at_ t idx.
Proof. intros H idx Hi. apply (reshape_at _ _ _ _ _ H); auto. Qed.

Lemma reshape_T2 (T Tf : nd R) b n : univariate_shape T b n -> reshape T [b; n; 1%nat] = Ok Tf ->
  forall x i, (x < b)%nat -> (i < n)%nat -> at_ Tf [x; i; O] = tgt T x i.
Proof.
  intros [HT|HT] H x i Hx Hi; unfold tgt; rewrite HT; apply (reshape_at _ _ _ _ _ H).
  - rewrite HT. apply inb2; auto.
  - rewrite HT. cbn [ravel]. rewrite !nprod_cons, !nprod0. lia.
  - rewrite HT. apply inb3; auto.
  - rewrite HT. auto.
Qed.

Lemma analytic_char Kin T b n s :
  shape Kin = [b; n; n] -> univariate_shape T b n ->
  analytic_scale ls Kin T = Ok s ->
  (forall x, (x < b)%nat -> nonsingular n (rowmat Kin x)) /\
  exists c, (forall x, (x < b)%nat -> solves n (rowmat Kin x) (c x) (tgt T x)) /\
    s = rsum b (fun x => dot n (tgt T x) (c x)) / INR (b * n).
Proof.
  intros HK HT. rewrite (analytic_unfold Kin T b n) by auto.
  intros H. apply bind_ok in H as (Kf & EK & H). apply bind_ok in H as (Tf & ET & H).
  apply bind_ok in H as (u & Eu & H). inversion H; subst s; clear H.
  pose proof (reshape_shape _ _ _ EK) as SK. pose proof (reshape_shape _ _ _ ET) as ST.
  rewrite <- HK in EK. pose proof (reshape_same _ _ EK) as HKf. rewrite HK in HKf.
  destruct (unnormalized_char Kf Tf b n 1 u SK ST Eu) as [Hns (c & Hc & Hu)].
  split.
  - intros x Hx. apply (nonsingular_ext n (rowmat Kf x)); [|apply Hns; auto].
    intros i j Hi Hj. unfold rowmat. apply HKf. apply inb3; auto.
  - exists (fun x => c x O). split.
    + intros x Hx. specialize (Hc x O Hx ltac:(lia)). intros i Hi. specialize (Hc i Hi). cbv beta in Hc.
      rewrite (reshape_T2 T Tf b n) in Hc by auto. rewrite <- Hc.
      apply rsum_ext; intros j Hj. unfold rowmat. rewrite HKf by (apply inb3; auto). auto.
    + rewrite Hu. f_equal. apply rsum_ext; intros x Hx. simpl.
      rewrite Rplus_0_l. unfold dot. apply rsum_ext; intros i Hi.
      rewrite (reshape_T2 T Tf b n) by auto. reflexivity.
Qed.

Lemma analytic_total Kin T b n :
  shape Kin = [b; n; n] -> univariate_shape T b n ->
  (forall x, (x < b)%nat -> nonsingular n (rowmat Kin x)) ->
  exists s, analytic_scale ls Kin T = Ok s.
Proof.
  intros HK HT Hns. rewrite (analytic_unfold Kin T b n) by auto.
  destruct (reshape_ok Kin [b; n; n]) as [Kf EK]; [rewrite HK; auto|].
  destruct (reshape_ok T [b; n; 1%nat]) as [Tf ET]; [destruct HT as [HT|HT]; rewrite HT, !nprod_cons, nprod0; lia|].
  rewrite EK, ET; cbn [bind].
  pose proof (reshape_shape _ _ _ EK) as SK. pose proof (reshape_shape _ _ _ ET) as ST.
  rewrite <- HK in EK. pose proof (reshape_same _ _ EK) as HKf. rewrite HK in HKf.
  destruct (unnormalized_total Kf Tf b n 1 SK ST) as [u Eu].
  { intros x Hx. apply (nonsingular_ext n (rowmat Kin x)); auto.
    intros i j Hi Hj. unfold rowmat. symmetry. apply HKf. apply inb3; auto. }
  rewrite Eu; cbn [bind]; eauto.
Qed.

Lemma analytic_value Kin T b n s c :
  shape Kin = [b; n; n] -> univariate_shape T b n ->
  analytic_scale ls Kin T = Ok s ->
  (forall x, (x < b)%nat -> solves n (rowmat Kin x) (c x) (tgt T x)) ->
  s = rsum b (fun x => dot n (tgt T x) (c x)) / INR (b * n).
Proof.
  intros HK HT H Hc. destruct (analytic_char _ _ _ _ _ HK HT H) as [Hns (c' & Hc' & Hs)].
  rewrite Hs. f_equal. apply rsum_ext; intros x Hx. unfold dot. apply rsum_ext; intros i Hi.
  f_equal. apply (solves_unique n (rowmat Kin x) (c' x) (c x) (tgt T x)); auto.
Qed.
End S.
