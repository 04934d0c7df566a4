(** Proofs about the reference scale and the test nugget. *)
From Coq Require Import Lia Lra.
From Verif Require Import Base BaseFacts NdModel NdFacts RSum LinAlgModel LinAlgSpec LinAlgFacts NoiseModel NoiseProofs GPModel MuyGPSModel GPSpec MuyGPSProofs ScaleSpec ScaleProofs
  LossProofs NeighborsProofs DriverProofs UtilsModel.
Local Open Scope R_scope.

Section Solver.
Variable ls : lsolver.
Hypothesis Hls : exact_solver ls.

Lemma scale_one Kin col v b n x : shape Kin = [b; n; n] -> (x < b)%nat ->
  (nonsingular n (noisy (HomoscedasticNoise v) Kin x) ->
   exists c, solves n (noisy (HomoscedasticNoise v) Kin x) c (fun i => at_ col [x; i; 0%nat]) /\
     get_scale_one ls Kin col v n x = Ok (dot n (fun i => at_ col [x; i; 0%nat]) c)) /\
  (~ nonsingular n (noisy (HomoscedasticNoise v) Kin x) -> get_scale_one ls Kin col v n x = Err LinAlgError).
Proof.
  intros HK Hx. unfold get_scale_one. rewrite HK. cbn [tl].
  set (Kj := mkNd [n; n] (fun idx => at_ Kin (x :: idx))).
  destruct (bop_same Rplus Kj (ndmap (Rmult v) (eye n)) eq_refl) as (K & -> & SK & AK). cbn [bind].
  set (Y := mkNd [n; 1%nat] _).
  assert (EK : forall i j, (i < n)%nat -> (j < n)%nat -> slice2 K [] i j = noisy (HomoscedasticNoise v) Kin x i j).
  { intros i j Hi Hj. unfold slice2. cbn [app]. rewrite AK by (apply inb2; auto). cbn [at_ Kj ndmap eye].
    unfold noisy, plus_diag, rowmat, noise_at. f_equal. destruct (i =? j)%nat; ring. }
  split.
  - intros Hns. destruct (np_solve_ok ls K Y [] n 1) as (X & EX); [rewrite SK; reflexivity|reflexivity| |].
    { intros idx Hidx. apply inb_inv_nil in Hidx. subst idx. apply (proj2 Hls). apply (nonsingular_ext n (noisy (HomoscedasticNoise v) Kin x)); auto.
      intros i j Hi Hj. symmetry. apply EK; auto. }
    rewrite EX. cbn [bind]. destruct (np_solve_inv ls K Y X [] n 1) as (SX & AX); [rewrite SK; reflexivity|reflexivity|exact EX|].
    destruct (AX [] (Forall2_nil _)) as (W & EW & HW). apply (proj1 Hls) with (c := 0%nat) in EW; [|lia].
    exists (fun i => at_ X [i; 0%nat]). split.
    + apply (solves_ext n (slice2 K [])); [exact EK|]. intros i Hi. specialize (EW i Hi). cbn beta in EW. unfold slice2 at 2 in EW. cbn [app at_ Y] in EW.
      rewrite <- EW. apply rsum_ext. intros j Hj. f_equal. apply (HW j 0%nat).
    + reflexivity.
  - intros Hs. rewrite (np_solve_singular ls K Y [] n 1 []); [reflexivity|rewrite SK; reflexivity|reflexivity|constructor|].
    destruct (ls n 1%nat (slice2 K []) (slice2 Y [])) as [W|] eqn:EW; [|reflexivity]. exfalso. apply Hs.
    apply (nonsingular_ext n (slice2 K [])); [exact EK|]. apply (proj2 Hls n 1%nat _ (slice2 Y [])). eauto.
Qed.

Lemma sequence_seq {A} (f : nat -> result A) (v : nat -> A) : forall n s, (forall j, (s <= j < s + n)%nat -> f j = Ok (v j)) ->
  sequence (map f (seq s n)) = Ok (map v (seq s n)).
Proof.
  intros n s H. apply sequence_of. assert (G : forall l, (forall j, In j l -> f j = Ok (v j)) -> Forall2 (fun x y => x = Ok y) (map f l) (map v l)).
  { induction l as [|a l IH]; intros HH; cbn; constructor; [apply HH; left; auto|]. apply IH. intros; apply HH; right; auto. }
  apply G. intros j Hj. apply in_seq in Hj. apply H. lia.
Qed.
Lemma sequence_bad {A} (f : nat -> result A) e : forall l x, In x l -> f x = Err e ->
  (forall y, In y l -> (exists v, f y = Ok v) \/ f y = Err e) -> sequence (map f l) = Err e.
Proof.
  induction l as [|a l IH]; intros x Hx E H; [destruct Hx|]. cbn [map sequence].
  destruct (H a (or_introl eq_refl)) as [(v & Ev)|Ev]; rewrite Ev; cbn [bind]; [|reflexivity].
  destruct Hx as [->|Hx]; [congruence|]. rewrite (IH x); auto. intros y Hy. apply H. right; auto.
Qed.

Lemma nonsingular_dec_classic n A : nonsingular n A \/ ~ nonsingular n A.
Proof.
  destruct (ls n 1%nat A (fun _ _ => 0)) as [X|] eqn:E.
  - left. apply (proj2 Hls n 1%nat A (fun _ _ => 0)). eauto.
  - right. intros H. apply (proj2 Hls n 1%nat A (fun _ _ => 0)) in H as (X & EX). congruence.
Qed.

Lemma series_ok Kin col v b n : shape Kin = [b; n; n] -> shape col = [b; n; 1%nat] -> (0 < n)%nat ->
  (forall x, (x < b)%nat -> nonsingular n (noisy (HomoscedasticNoise v) Kin x)) ->
  exists l, get_scale_series ls Kin col v = Ok l /\ List.length l = b /\
    forall x, (x < b)%nat -> ml_scale 1 n (fun _ => noisy (HomoscedasticNoise v) Kin x) (fun _ => tgt col x) (nth x l 0).
Proof.
  intros HK HC Hn Hns. unfold get_scale_series. rewrite HC, HK.
  set (val := fun j => match get_scale_one ls Kin col v n j with Ok r => r | Err _ => 0 end).
  rewrite (sequence_seq _ val).
  2: { intros j Hj. cbn [orb Nat.eqb]. destruct (Nat.ltb_spec j b); [|lia]. cbn [negb]. unfold val.
       destruct (proj1 (scale_one Kin col v b n j HK ltac:(lia)) (Hns j ltac:(lia))) as (c & _ & ->). reflexivity. }
  cbn [bind]. eexists. split; [reflexivity|]. split; [rewrite !map_length, seq_length; reflexivity|].
  intros x Hx. rewrite map_map, (nth_map (fun j => val j / INR n) _ O) by (rewrite seq_length; auto). rewrite seq_nth by auto. cbn [Nat.add].
  unfold val. destruct (proj1 (scale_one Kin col v b n x HK Hx) (Hns x Hx)) as (c & Hc & ->).
  exists (dot n (fun i => at_ col [x; i; 0%nat]) c). split.
  - exists (fun _ => c). assert (T : tgt col x = fun i => at_ col [x; i; 0%nat]) by (unfold tgt; rewrite HC; reflexivity). split.
    + intros _ _. rewrite T. exact Hc.
    + cbn [rsum]. rewrite T. lra.
  - change (INR 1) with 1. rewrite Rmult_1_l. reflexivity.
Qed.
Lemma series_singular Kin col v b n x : shape Kin = [b; n; n] -> shape col = [b; n; 1%nat] -> (x < b)%nat ->
  ~ nonsingular n (noisy (HomoscedasticNoise v) Kin x) -> get_scale_series ls Kin col v = Err LinAlgError.
Proof.
  intros HK HC Hx Hs. unfold get_scale_series. rewrite HC, HK.
  rewrite (sequence_bad _ LinAlgError (seq 0 b) x); [reflexivity|apply in_seq; lia| |].
  - cbn [orb Nat.eqb]. destruct (Nat.ltb_spec x b); [|lia]. apply (proj2 (scale_one Kin col v b n x HK Hx) Hs).
  - intros y Hy. apply in_seq in Hy. cbn [orb Nat.eqb]. destruct (Nat.ltb_spec y b); [|lia]. cbn [negb].
    destruct (nonsingular_dec_classic n (noisy (HomoscedasticNoise v) Kin y)) as [N|N].
    + left. destruct (proj1 (scale_one Kin col v b n y HK ltac:(lia)) N) as (c & _ & E). eauto.
    + right. apply (proj2 (scale_one Kin col v b n y HK ltac:(lia)) N).
Qed.

(** The library's analytic scale is the mean of the series. *)
Lemma series_mean g it kw Kin T col v b n s l : (it <= 1)%nat -> (0 < b)%nat -> (0 < n)%nat -> gp_noise g = HomoscedasticNoise v ->
  shape Kin = [b; n; n] -> univariate_shape T b n -> shape col = [b; n; 1%nat] ->
  (forall x i, (x < b)%nat -> (i < n)%nat -> at_ col [x; i; 0%nat] = tgt T x i) ->
  analytic_scale_opt ls g it Kin T kw = Ok s -> get_scale_series ls Kin col v = Ok l ->
  s = rsum b (fun x => nth x l 0) / INR b.
Proof.
  intros Hit Hb Hn Hg HK HT HC HV Es El.
  destruct (c33_inv ls Hls g it kw Kin T b n s Hit) as (Hns & q & (c & Hc & Eq) & Hs); auto; [rewrite Hg; exact I|].
  rewrite Hg in Hns, Hc.
  destruct (series_ok Kin col v b n HK HC Hn Hns) as (l' & E' & L' & A'). assert (l' = l) as -> by congruence.
  apply lt_INR in Hb as Hb'. apply lt_INR in Hn as Hn'. change (INR 0) with 0 in *.
  assert (E : forall x, (x < b)%nat -> nth x l 0 = dot n (tgt T x) (c x) / INR n).
  { intros x Hx. destruct (A' x Hx) as (q' & (c' & Hc' & ->) & ->). cbn [rsum]. change (INR 1) with 1. rewrite Rmult_1_l, Rplus_0_l. f_equal.
    specialize (Hc' 0%nat ltac:(lia)). specialize (Hc x Hx).
    assert (TC : forall i, (i < n)%nat -> tgt col x i = tgt T x i).
    { intros i Hi. unfold tgt at 1. rewrite HC. apply HV; auto. }
    unfold dot. apply rsum_ext. intros i Hi. rewrite TC by auto. f_equal.
    apply (solves_unique n (noisy (HomoscedasticNoise v) Kin x) (c' 0%nat) (c x) (tgt T x)); auto.
    intros k Hk. rewrite (Hc' k Hk). apply TC, Hk. }
  rewrite (rsum_ext b _ (fun x => / INR n * dot n (tgt T x) (c x))) by (intros x Hx; rewrite E by auto; unfold Rdiv; ring).
  rewrite rsum_scal, Hs, Eq. field. lra.
Qed.
End Solver.

(** The test nugget is a constant noise. *)
Lemma nugget_constant Kin b n m : shape Kin = [b; n; n] -> (0 < b)%nat ->
  exists K K', perturb (HeteroscedasticNoise (make_heteroscedastic_test_nugget b n m)) Kin None = Ok K /\
    perturb (HomoscedasticNoise m) Kin None = Ok K' /\ nd_eq K K'.
Proof.
  intros HK Hb. cbn [perturb].
  destruct (heteroscedastic_all Kin (make_heteroscedastic_test_nugget b n m) b n HK eq_refl Hb) as (K & -> & S & A).
  destruct (homoscedastic3 Kin m b n HK) as (K' & -> & S' & A'). exists K, K'. split; [reflexivity|]. split; [reflexivity|].
  split; [congruence|]. rewrite S. intros idx Hi. apply inb_inv3 in Hi as (x & i & j & -> & Hx & Hi & Hj). rewrite A, A' by auto.
  f_equal. destruct (i =? j)%nat; [|reflexivity]. cbn. ring.
Qed.

Lemma sq_rel_err_le t e r : t <> 0 -> 0 <= r -> (sq_rel_err t e <= r ^ 2 <-> Rabs (t - e) <= r * Rabs t).
Proof.
  intros Ht Hr. unfold sq_rel_err. assert (P : 0 < Rabs t) by (apply Rabs_pos_lt; auto).
  assert (E : Rabs ((t - e) / t) = Rabs (t - e) / Rabs t) by (unfold Rdiv; rewrite Rabs_mult, Rabs_inv; reflexivity).
  rewrite <- (pow2_abs ((t - e) / t)), E. split; intros H.
  - apply Rnot_lt_le. intros C. assert (r < Rabs (t - e) / Rabs t) by (apply Rmult_lt_reg_r with (Rabs t); auto; unfold Rdiv; rewrite Rmult_assoc, Rinv_l by lra; lra).
    assert (r ^ 2 < (Rabs (t - e) / Rabs t) ^ 2) by (cbn [pow]; rewrite !Rmult_1_r; apply Rmult_le_0_lt_compat; auto). lra.
  - apply pow_incr. split; [apply Rmult_le_pos; [apply Rabs_pos|left; apply Rinv_0_lt_compat; auto]|].
    apply Rmult_le_reg_r with (Rabs t); auto. unfold Rdiv. rewrite Rmult_assoc, Rinv_l by lra. lra.
Qed.
Lemma sq_rel_err_unit t e a : t <> 0 -> a <> 0 -> sq_rel_err (a * t) (a * e) = sq_rel_err t e.
Proof. intros. unfold sq_rel_err. field. auto. Qed.
