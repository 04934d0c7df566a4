(** Proofs about DownSampleScale (C56). *)
From Coq Require Import Lia Lra Sorted Permutation.
From Verif Require Import Base BaseFacts NdModel NdFacts RSum LinAlgModel LinAlgSpec LinAlgFacts
  GPModel GPProofs NoiseModel NoiseProofs MuyGPSModel GPSpec MuyGPSProofs GPTheorems ScaleSpec ScaleProofs.
Local Open Scope R_scope.

Lemma insert_nat_perm a l : Permutation (a :: l) (insert_nat a l).
Proof.
  induction l as [|b l IH]; cbn; auto. destruct (a <=? b)%nat; auto.
  rewrite perm_swap. constructor. exact IH.
Qed.
Lemma sort_nat_perm l : Permutation l (sort_nat l).
Proof. induction l as [|a l IH]; cbn; auto. rewrite IH at 1. apply insert_nat_perm. Qed.
Lemma insert_nat_sorted a l : Sorted le l -> Sorted le (insert_nat a l).
Proof.
  induction l as [|b l IH]; cbn; intros H; [repeat constructor|].
  destruct (Nat.leb_spec a b).
  - constructor; auto.
  - inversion H; subst. constructor; auto.
    destruct l as [|c l]; cbn in *; [constructor; lia|].
    destruct (a <=? c)%nat; constructor; [lia|]. inversion H4; auto.
Qed.
Lemma sort_nat_sorted l : Sorted le (sort_nat l).
Proof. induction l as [|a l IH]; cbn; [constructor|]. apply insert_nat_sorted; auto. Qed.

Lemma nth_inj (l : list nat) i j : NoDup l -> (i < List.length l)%nat -> (j < List.length l)%nat ->
  nth i l O = nth j l O -> i = j.
Proof. intros H Hi Hj E. exact (proj1 (NoDup_nth l O) H i j Hi Hj E). Qed.

Lemma quad_sub n A idx x :
  NoDup idx -> (forall a, In a idx -> (a < n)%nat) ->
  quad (List.length idx) (submat A idx) x =
  quad n A (fun j => rsum (List.length idx) (fun i => delta j (nth i idx O) * x i)).
Proof.
  intros Hnd Hb. unfold quad. set (d := List.length idx).
  assert (Hin : forall i, (i < d)%nat -> (nth i idx O < n)%nat).
  { intros i Hi. apply Hb. apply nth_In. auto. }
  symmetry.
  rewrite (rsum_ext n _ (fun j => rsum d (fun i => delta j (nth i idx O) *
     (x i * rsum n (fun l => A j l * rsum d (fun k => delta l (nth k idx O) * x k)))))).
  2:{ intros j Hj. rewrite (rsum_ext n _ (fun l => rsum d (fun i => delta j (nth i idx O) * x i) *
        (A j l * rsum d (fun k => delta l (nth k idx O) * x k)))) by (intros; ring).
      rewrite rsum_scal, <- rsum_scal_r. apply rsum_ext; intros; ring. }
  rewrite rsum_swap. apply rsum_ext; intros i Hi.
  rewrite (rsum_delta n (nth i idx O) (fun j => x i * rsum n (fun l => A j l * _))) by auto.
  rewrite <- rsum_scal.
  rewrite (rsum_ext n _ (fun l => rsum d (fun k => delta l (nth k idx O) * (x i * A (nth i idx O) l * x k)))).
  2:{ intros l Hl. rewrite <- rsum_scal, <- rsum_scal. apply rsum_ext; intros; ring. }
  rewrite rsum_swap. apply rsum_ext; intros k Hk.
  rewrite (rsum_delta n (nth k idx O)) by auto. reflexivity.
Qed.

Lemma pd_sub n A idx : NoDup idx -> (forall a, In a idx -> (a < n)%nat) -> pd n A ->
  pd (List.length idx) (submat A idx).
Proof.
  intros Hnd Hb Hp x (i0 & Hi0 & Hx0). rewrite (quad_sub n) by auto. apply Hp.
  exists (nth i0 idx O). split; [apply Hb, nth_In; auto|].
  rewrite (rsum_ext _ _ (fun i => delta i i0 * x i)).
  - rewrite rsum_delta; auto.
  - intros i Hi. unfold delta.
    destruct (Nat.eqb_spec (nth i0 idx O) (nth i idx O)) as [E|E]; destruct (Nat.eqb_spec i i0) as [E'|E']; auto.
    + apply nth_inj in E; auto. congruence.
    + subst. congruence.
Qed.

Section T.
Variable ls : lsolver.
Hypothesis Hls : exact_solver ls.

Lemma atleast_3d_idem (T : nd R) b n : shape T = [b; n] ->
  atleast_3d (atleast_3d T) = atleast_3d T /\ shape (atleast_3d T) = [b; n; 1%nat] /\
  forall x i s, at_ (atleast_3d T) [x; i; s] = at_ T [x; i].
Proof. intros H. unfold atleast_3d. rewrite H. cbn. auto. Qed.

Lemma unnorm_idem K T b n : shape T = [b; n] ->
  analytic_scale_unnormalized ls K T = analytic_scale_unnormalized ls K (atleast_3d T).
Proof.
  intros H. unfold analytic_scale_unnormalized. destruct (atleast_3d_idem T b n H) as (-> & _). reflexivity.
Qed.

Lemma downsampled m Kin K T b n r idx :
  noise_fits m b n -> shape Kin = [b; n; n] -> resp_shape T b n r ->
  perturb m Kin None = Ok K ->
  (forall x, (x < b)%nat -> pd n (noisy m Kin x)) ->
  NoDup idx -> (forall a, In a idx -> (a < n)%nat) ->
  exists u, analytic_scale_unnormalized ls (take_axis2 (take_axis1 K idx) idx) (take_axis1 T idx) = Ok u /\
    sub_quad b r (noisy m Kin) (resp T) idx u.
Proof.
  intros Hf HK HT EK Hpd Hnd Hb.
  destruct (perturb3 m None Kin b n Hf HK) as (K' & EK' & SK & HKv).
  rewrite EK in EK'. inversion EK'; subst K'; clear EK'.
  set (d := List.length idx).
  assert (SD : shape (take_axis2 (take_axis1 K idx) idx) = [b; d; d]).
  { unfold take_axis2, take_axis1. rewrite SK. reflexivity. }
  assert (Hin : forall i, (i < d)%nat -> (nth i idx O < n)%nat) by (intros; apply Hb, nth_In; auto).
  assert (AD : forall x i j, (x < b)%nat -> (i < d)%nat -> (j < d)%nat ->
     rowmat (take_axis2 (take_axis1 K idx) idx) x i j = submat (noisy m Kin x) idx i j).
  { intros x i j Hx Hi Hj. unfold rowmat, take_axis2, take_axis1. rewrite SK. cbn [shape at_].
    unfold submat, noisy, plus_diag, rowmat. rewrite HKv by auto. reflexivity. }
  assert (G : forall T3, shape T3 = [b; d; r] ->
     (forall x i s, (x < b)%nat -> (i < d)%nat -> (s < r)%nat -> at_ T3 [x; i; s] = resp T x s (nth i idx O)) ->
     exists u, analytic_scale_unnormalized ls (take_axis2 (take_axis1 K idx) idx) T3 = Ok u /\
     sub_quad b r (noisy m Kin) (resp T) idx u).
  { intros T3 ST AT.
    destruct (unnormalized_total ls Hls _ _ b d r SD ST) as [u Eu].
    { intros x Hx. apply (nonsingular_ext d (submat (noisy m Kin x) idx)).
      - intros; symmetry; auto.
      - apply pd_nonsingular. apply (pd_sub n); auto. }
    exists u. split; auto.
    destruct (unnormalized_char ls Hls _ _ b d r u SD ST Eu) as [_ (c & Hc & Hu)].
    exists c. split.
    - intros x s Hx Hs i Hi. rewrite <- AT by auto. rewrite <- (Hc x s Hx Hs i Hi).
      apply rsum_ext; intros j Hj. rewrite AD; auto.
    - rewrite Hu. apply rsum_ext; intros x Hx. apply rsum_ext; intros s Hs. apply dot_ext; auto. }
  destruct HT as [HT|[HT ->]].
  - apply G.
    + unfold take_axis1. rewrite HT. reflexivity.
    + intros x i s Hx Hi Hs. unfold take_axis1, resp. rewrite HT. reflexivity.
  - assert (ST : shape (take_axis1 T idx) = [b; d]) by (unfold take_axis1; rewrite HT; reflexivity).
    rewrite (unnorm_idem _ _ b d ST). destruct (atleast_3d_idem _ _ _ ST) as (_ & S3 & A3).
    apply G; auto. intros x i s Hx Hi Hs. rewrite A3. unfold take_axis1, resp. rewrite HT. reflexivity.
Qed.

Lemma sequence_map_ok {A B} (f : A -> result B) (P : A -> B -> Prop) (l : list A) :
  (forall a, In a l -> exists b, f a = Ok b /\ P a b) ->
  exists bs, sequence (map f l) = Ok bs /\ Forall2 P l bs.
Proof.
  induction l as [|a l IH]; intros H; cbn [map sequence].
  - exists []. auto.
  - destruct (H a) as (b & Eb & Pb); [left; auto|]. rewrite Eb; cbn [bind].
    destruct IH as (bs & Ebs & HF); [intros; apply H; right; auto|]. rewrite Ebs; cbn [bind].
    exists (b :: bs). auto.
Qed.

Lemma c56_downsample g down it draws Kin T b n r :
  noise_fits (gp_noise g) b n -> shape Kin = [b; n; n] -> resp_shape T b n r ->
  (0 < b)%nat -> (0 < down < n)%nat -> (0 < it)%nat ->
  (forall x, (x < b)%nat -> pd n (noisy (gp_noise g) Kin x)) ->
  (forall k, (k < it)%nat -> NoDup (draws k) /\ List.length (draws k) = down /\
     forall a, In a (draws k) -> (a < n)%nat) ->
  exists scales m, downsample_scale_opt ls g down it draws Kin T = Ok (Some (m / (INR down * INR b))) /\
    is_median scales m /\
    Forall2 (fun k q => exists idx, Permutation (draws k) idx /\ Sorted le idx /\
       sub_quad b r (noisy (gp_noise g) Kin) (resp T) idx q) (seq 0 it) scales.
Proof.
  intros Hf HK HT Hb Hd Hit Hpd Hdr. unfold downsample_scale_opt. rewrite HK.
  destruct (Nat.leb_spec n down); [lia|].
  destruct (perturb3 (gp_noise g) None Kin b n Hf HK) as (K & EK & SK & HKv). rewrite EK; cbn [bind].
  match goal with |- context [sequence (map ?f ?l)] =>
    destruct (sequence_map_ok f (fun k q => exists idx, Permutation (draws k) idx /\ Sorted le idx /\
       sub_quad b r (noisy (gp_noise g) Kin) (resp T) idx q) l) as (scales & Es & HF) end.
  { intros k Hk. apply in_seq in Hk. destruct (Hdr k ltac:(lia)) as (H1 & H2 & H3).
    cbv zeta.
    destruct (downsampled (gp_noise g) Kin K T b n r (sort_nat (draws k))) as (u & Eu & Hu); auto.
    - eapply Permutation_NoDup; [apply sort_nat_perm|auto].
    - intros a Ha. apply H3. eapply Permutation_in; [symmetry; apply sort_nat_perm|auto].
    - exists u. split; auto. exists (sort_nat (draws k)).
      split; [apply sort_nat_perm|]. split; [apply sort_nat_sorted|auto]. }
  rewrite Es; cbn [bind].
  destruct (median_some scales) as [m Hm].
  { intros ->. destruct it; [lia|]. cbn in HF. inversion HF. }
  rewrite Hm. destruct (Nat.eqb_spec (down * b) 0); [nia|].
  exists scales, m. rewrite mult_INR. split; auto. split; [apply median_spec; auto|auto].
Qed.

Lemma c56_reject g down it draws Kin T b n n' :
  shape Kin = [b; n; n'] -> (n <= down)%nat ->
  downsample_scale_opt ls g down it draws Kin T = Err ValueError.
Proof.
  intros HK H. unfold downsample_scale_opt. rewrite HK. destruct (Nat.leb_spec n down); [auto|lia].
Qed.
End T.

Lemma c56_zero :
  check_positive_integer 0 = Ok 0%Z /\
  (forall c, (c < 0)%Z -> check_positive_integer c = Err ValueError) /\
  forall ls g down draws Kin T b n K,
    shape Kin = [b; n; n] -> (down < n)%nat -> perturb (gp_noise g) Kin None = Ok K ->
    downsample_scale_opt ls g down 0 draws Kin T = Ok None.
Proof.
  split; [reflexivity|]. split.
  - intros c Hc. unfold check_positive_integer. destruct (Z.ltb_spec c 0); [auto|lia].
  - intros ls g down draws Kin T b n K HK Hd EK. unfold downsample_scale_opt. rewrite HK.
    destruct (Nat.leb_spec n down); [lia|]. rewrite EK. reflexivity.
Qed.
