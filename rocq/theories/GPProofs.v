(** Lemmas about [GPModel]. *)
From Coq Require Import Lia Lra.
From Verif Require Import Base BaseFacts NdModel NdFacts RSum LinAlgModel LinAlgSpec LinAlgFacts GPModel GPSpec.
Local Open Scope R_scope.

Lemma count_eq_self (l : list nat) :
  List.length (filter (fun p => Nat.eqb (fst p) (snd p)) (combine l l)) = List.length l.
Proof. induction l as [|a l IH]; simpl; auto. rewrite Nat.eqb_refl; simpl; auto. Qed.

Lemma combine_app {A B} (a1 a2 : list A) (b1 b2 : list B) : List.length a1 = List.length b1 ->
  combine (a1 ++ a2) (b1 ++ b2) = combine a1 b1 ++ combine a2 b2.
Proof.
  revert b1; induction a1 as [|x a1 IH]; destruct b1; simpl; intros H; try discriminate; auto.
  rewrite IH by lia; auto.
Qed.

Lemma count_none (ex ins : list nat) : no_coincidence ex ins ->
  List.length (filter (fun p => Nat.eqb (fst p) (snd p)) (combine ex (firstn (List.length ex) ins))) = O.
Proof.
  revert ins; induction ex as [|e ex IH]; intros ins [Hl Hk]; auto.
  destruct ins as [|i ins]; simpl in *; [lia|].
  pose proof (Hk O ltac:(lia)) as H0; simpl in H0. apply Nat.eqb_neq in H0; rewrite H0.
  apply IH. split; [lia|]. intros k Hlt. apply (Hk (S k)); lia.
Qed.

Lemma find_matching_generic bs ins ex : no_coincidence ex ins ->
  find_matching_ndim (bs ++ ins ++ ex) (bs ++ ins ++ ins) = Ok (List.length bs + List.length ins)%nat.
Proof.
  intros Hnc. pose proof Hnc as [Hl _]. unfold find_matching_ndim.
  assert (E : firstn (List.length (bs ++ ins ++ ex)) (bs ++ ins ++ ins)
              = bs ++ ins ++ firstn (List.length ex) ins).
  { rewrite !app_length. rewrite !app_assoc. rewrite firstn_app.
    rewrite !app_length, firstn_all2 by (rewrite app_length; lia). f_equal. f_equal. lia. }
  rewrite E. rewrite !app_length, firstn_length_le by auto. rewrite Nat.eqb_refl.
  rewrite !app_assoc, combine_app by auto. rewrite filter_app, app_length, count_none by auto.
  rewrite count_eq_self, app_length. f_equal; lia.
Qed.

Lemma skipn_app_len {A} (l1 l2 : list A) : skipn (List.length l1) (l1 ++ l2) = l2.
Proof. rewrite skipn_app, skipn_all, Nat.sub_diag; auto. Qed.

Lemma firstn_app_len {A} (l1 l2 : list A) : firstn (List.length l1) (l1 ++ l2) = l1.
Proof. rewrite firstn_app, firstn_all, Nat.sub_diag; simpl; apply app_nil_r. Qed.

Section Mean.
Variable ls : lsolver.
Hypothesis Hls : exact_solver ls.

(** Flat views of the kernel tensors at batch index [x]. *)
Definition Kmat (Kin : nd R) ins x : nat -> nat -> R :=
  fun a b => at_ Kin (x ++ unravel ins a ++ unravel ins b).

Lemma posterior_mean_unfold Kin Kcross T bs ins outs ex :
  ins <> [] ->
  shape Kin = bs ++ ins ++ ins -> shape Kcross = bs ++ ins ++ outs -> shape T = bs ++ ins ++ ex ->
  no_coincidence ex ins ->
  posterior_mean ls Kin Kcross T =
   (let! Tf := reshape T (bs ++ [nprod ins; nprod ex]) in
    let! Kf := reshape Kin (bs ++ [nprod ins; nprod ins]) in
    let! Cf := reshape Kcross (bs ++ [nprod ins; nprod outs]) in
    let! F := np_solve ls Kf Cf in
    let! r := np_matmul (swapaxes_last F) Tf in
    reshape r (bs ++ outs ++ ex)).
Proof.
  intros Hne HK HC HT Hnc. unfold posterior_mean.
  rewrite HK, HC, HT, find_matching_generic by auto. cbn [bind].
  assert (E1 : skipn (List.length bs + List.length ins) (bs ++ ins ++ ins) = ins).
  { rewrite app_assoc, <- app_length, skipn_app_len; auto. }
  assert (E2 : skipn (List.length bs + List.length ins) (bs ++ ins ++ outs) = outs).
  { rewrite app_assoc, <- app_length, skipn_app_len; auto. }
  rewrite E1, E2.
  assert (E3 : slice_to_neg (bs ++ ins ++ ins) (2 * List.length ins) = bs).
  { unfold slice_to_neg. assert (List.length ins <> O) by (destruct ins; simpl; [contradiction|lia]).
    destruct (Nat.eqb_spec (2 * List.length ins) 0); [lia|].
    rewrite !app_length.
    replace (List.length bs + (List.length ins + List.length ins) - 2 * List.length ins)%nat
      with (List.length bs) by lia. apply firstn_app_len. }
  rewrite E3.
  assert (E4 : skipn (List.length bs + List.length ins) (bs ++ ins ++ ex) = ex).
  { rewrite app_assoc, <- app_length, skipn_app_len; auto. }
  rewrite E4. reflexivity.
Qed.

Lemma posterior_mean_correct Kin Kcross T bs ins outs ex t :
  ins <> [] ->
  shape Kin = bs ++ ins ++ ins -> shape Kcross = bs ++ ins ++ outs -> shape T = bs ++ ins ++ ex ->
  no_coincidence ex ins ->
  posterior_mean ls Kin Kcross T = Ok t ->
  shape t = bs ++ outs ++ ex /\
  forall x o, inb bs x -> inb outs o ->
    exists w, solves (nprod ins) (Kmat Kin ins x) w (fun a => at_ Kcross (x ++ unravel ins a ++ o)) /\
      forall e, inb ex e ->
      at_ t (x ++ o ++ e) = rsum (nprod ins) (fun a => w a * at_ T (x ++ unravel ins a ++ e)).
Proof.
  intros Hne HK HC HT Hnc. rewrite (posterior_mean_unfold _ _ _ bs ins outs ex) by auto.
  intros H. apply bind_ok in H as (Tf & ETf & H). apply bind_ok in H as (Kf & EKf & H).
  apply bind_ok in H as (Cf & ECf & H). apply bind_ok in H as (F & EF & H).
  apply bind_ok in H as (r & Er & H).
  pose proof (reshape_shape _ _ _ ETf) as STf. pose proof (reshape_shape _ _ _ EKf) as SKf.
  pose proof (reshape_shape _ _ _ ECf) as SCf.
  destruct (np_solve_inv ls _ _ _ _ _ _ SKf SCf EF) as [SF HF].
  assert (SsF : shape (swapaxes_last F) = bs ++ [nprod outs; nprod ins]).
  { simpl. rewrite SF. apply swap_last_app2. }
  destruct (np_matmul_inv _ _ _ _ _ _ SsF STf) as (r' & Er' & Sr & Hr).
  rewrite Er in Er'; inversion Er'; subst r'; clear Er'.
  split; [apply (reshape_shape _ _ _ H)|].
  intros x o Hx Ho.
  destruct (HF x Hx) as (Y & EY & HY).
  destruct Hls as [Hsp _]. pose proof (ravel_lt _ _ Ho) as Hc.
  pose proof (Hsp _ _ _ _ _ EY (ravel outs o) Hc) as Hsolve.
  exists (fun a => Y a (ravel outs o)). split.
  - intros a Ha. specialize (Hsolve a Ha). unfold slice2 in Hsolve.
    rewrite (reshape_flat2 _ _ _ _ _ _ _ _ HC ECf) in Hsolve by auto.
    rewrite unravel_ravel in Hsolve by auto. rewrite <- Hsolve.
    apply rsum_ext; intros b Hb. unfold Kmat.
    rewrite <- (reshape_flat2 _ _ _ _ _ _ _ _ HK EKf) by auto. reflexivity.
  - intros e He. rewrite (reshape_unflat2 _ _ _ _ _ _ _ _ Sr H) by auto.
    rewrite Hr. apply rsum_ext; intros a Ha. simpl. rewrite swap_last_app2, HY.
    rewrite (reshape_flat2 _ _ _ _ _ _ _ _ HT ETf) by (auto; apply ravel_lt; auto).
    rewrite unravel_ravel by auto. reflexivity.
Qed.

Lemma posterior_mean_total Kin Kcross T bs ins outs ex :
  ins <> [] ->
  shape Kin = bs ++ ins ++ ins -> shape Kcross = bs ++ ins ++ outs -> shape T = bs ++ ins ++ ex ->
  no_coincidence ex ins ->
  (forall x, inb bs x -> nonsingular (nprod ins) (Kmat Kin ins x)) ->
  exists t, posterior_mean ls Kin Kcross T = Ok t.
Proof.
  intros Hne HK HC HT Hnc Hns. rewrite (posterior_mean_unfold _ _ _ bs ins outs ex) by auto.
  destruct (reshape_ok T (bs ++ [nprod ins; nprod ex])) as [Tf ETf].
  { rewrite HT, !nprod_app, nprod2. lia. }
  destruct (reshape_ok Kin (bs ++ [nprod ins; nprod ins])) as [Kf EKf].
  { rewrite HK, !nprod_app, nprod2. lia. }
  destruct (reshape_ok Kcross (bs ++ [nprod ins; nprod outs])) as [Cf ECf].
  { rewrite HC, !nprod_app, nprod2. lia. }
  rewrite ETf, EKf, ECf; simpl.
  pose proof (reshape_shape _ _ _ ETf) as STf. pose proof (reshape_shape _ _ _ EKf) as SKf.
  pose proof (reshape_shape _ _ _ ECf) as SCf.
  destruct (np_solve_ok ls Kf Cf _ _ _ SKf SCf) as [F EF].
  { intros x Hx. apply Hls. intros v Hv j Hj. apply (Hns x Hx v); auto.
    apply (solves_ext _ (slice2 Kf x)); auto. intros a b Ha Hb. unfold slice2, Kmat.
    apply (reshape_flat2 _ _ _ _ _ _ _ _ HK EKf); auto. }
  rewrite EF; simpl.
  destruct (np_solve_inv ls _ _ _ _ _ _ SKf SCf EF) as [SF HF].
  assert (SsF : shape (swapaxes_last F) = bs ++ [nprod outs; nprod ins]).
  { simpl. rewrite SF. apply swap_last_app2. }
  destruct (np_matmul_inv _ _ _ _ _ _ SsF STf) as (r & Er & Sr & Hr).
  rewrite Er; simpl. apply reshape_ok. rewrite Sr, !nprod_app, nprod2; lia.
Qed.

Lemma posterior_mean_singular Kin Kcross T bs ins outs ex x :
  ins <> [] ->
  shape Kin = bs ++ ins ++ ins -> shape Kcross = bs ++ ins ++ outs -> shape T = bs ++ ins ++ ex ->
  no_coincidence ex ins -> inb bs x ->
  ~ nonsingular (nprod ins) (Kmat Kin ins x) ->
  posterior_mean ls Kin Kcross T = Err LinAlgError.
Proof.
  intros Hne HK HC HT Hnc Hx Hs. rewrite (posterior_mean_unfold _ _ _ bs ins outs ex) by auto.
  destruct (reshape_ok T (bs ++ [nprod ins; nprod ex])) as [Tf ETf].
  { rewrite HT, !nprod_app, nprod2. lia. }
  destruct (reshape_ok Kin (bs ++ [nprod ins; nprod ins])) as [Kf EKf].
  { rewrite HK, !nprod_app, nprod2. lia. }
  destruct (reshape_ok Kcross (bs ++ [nprod ins; nprod outs])) as [Cf ECf].
  { rewrite HC, !nprod_app, nprod2. lia. }
  rewrite ETf, EKf, ECf; simpl.
  pose proof (reshape_shape _ _ _ EKf) as SKf.
  pose proof (reshape_shape _ _ _ ECf) as SCf.
  rewrite (np_solve_singular ls Kf Cf _ _ _ x SKf SCf Hx); auto.
  destruct (ls _ _ _ _) as [Y|] eqn:E; auto. exfalso. apply Hs.
  assert (nonsingular (nprod ins) (slice2 Kf x)) as Hn.
  { apply (proj2 Hls _ (nprod outs) _ (slice2 Cf x)); eauto. }
  intros v Hv j Hj. apply (Hn v); auto.
  apply (solves_ext _ (Kmat Kin ins x)); auto. intros a b Ha Hb. unfold slice2, Kmat.
  symmetry; apply (reshape_flat2 _ _ _ _ _ _ _ _ HK EKf); auto.
Qed.

(** ** Diagonal variance *)

Lemma diagonal_variance_unfold Kin Kcross Kout bs ins outs :
  shape Kin = bs ++ ins ++ ins -> shape Kcross = bs ++ ins ++ outs ->
  diagonal_variance ls Kin Kcross Kout (List.length bs) =
   (let! Kf := reshape Kin (bs ++ [nprod ins; nprod ins]) in
    let! Cf := reshape Kcross (bs ++ [nprod ins; nprod outs]) in
    let! F := np_solve ls Kf Cf in
    let! P := np_matmul (swapaxes_last F) Cf in
    let! P' := reshape P (bs ++ outs ++ outs) in
    bop Rminus Kout P').
Proof.
  intros HK HC. unfold diagonal_variance, ndim. rewrite HK, HC, !app_length.
  replace ((List.length bs + (List.length ins + List.length ins) - List.length bs) / 2)%nat
    with (List.length ins).
  2:{ replace (List.length bs + (List.length ins + List.length ins) - List.length bs)%nat
        with (List.length ins * 2)%nat by lia. rewrite Nat.div_mul; lia. }
  rewrite firstn_app_len.
  assert (E : forall l, skipn (List.length bs + List.length ins) (bs ++ ins ++ l) = l).
  { intros l. rewrite app_assoc, <- app_length, skipn_app_len; auto. }
  rewrite !E. reflexivity.
Qed.

Lemma diagonal_variance_correct Kin Kcross Kout bs ins outs t :
  shape Kin = bs ++ ins ++ ins -> shape Kcross = bs ++ ins ++ outs -> shape Kout = outs ++ outs ->
  diagonal_variance ls Kin Kcross Kout (List.length bs) = Ok t ->
  shape t = bs ++ outs ++ outs /\
  forall x o, inb bs x -> inb outs o ->
    exists w, solves (nprod ins) (Kmat Kin ins x) w (fun a => at_ Kcross (x ++ unravel ins a ++ o)) /\
      forall o', inb outs o' ->
      at_ t (x ++ o ++ o') = at_ Kout (o ++ o') -
        rsum (nprod ins) (fun a => w a * at_ Kcross (x ++ unravel ins a ++ o')).
Proof.
  intros HK HC HO. rewrite (diagonal_variance_unfold _ _ _ bs ins outs) by auto.
  intros H. apply bind_ok in H as (Kf & EKf & H).
  apply bind_ok in H as (Cf & ECf & H). apply bind_ok in H as (F & EF & H).
  apply bind_ok in H as (r & Er & H). apply bind_ok in H as (r2 & Er2 & H).
  pose proof (reshape_shape _ _ _ EKf) as SKf. pose proof (reshape_shape _ _ _ ECf) as SCf.
  destruct (np_solve_inv ls _ _ _ _ _ _ SKf SCf EF) as [SF HF].
  assert (SsF : shape (swapaxes_last F) = bs ++ [nprod outs; nprod ins]).
  { simpl. rewrite SF. apply swap_last_app2. }
  destruct (np_matmul_inv _ _ _ _ _ _ SsF SCf) as (r' & Er' & Sr & Hr).
  rewrite Er in Er'; inversion Er'; subst r'; clear Er'.
  pose proof (reshape_shape _ _ _ Er2) as Sr2.
  assert (Hb : bshape (shape Kout) (shape r2) = Some (bs ++ outs ++ outs)).
  { rewrite HO, Sr2. unfold bshape.
    rewrite (rev_app_distr bs). 
    assert (forall a b, brev a (a ++ b) = Some (a ++ b)) as Hp.
    { induction a as [|c a IH]; intros b; simpl; [destruct b; auto|]. rewrite IH, Nat.eqb_refl; auto. }
    rewrite Hp; simpl. rewrite rev_app_distr, !rev_involutive; auto. }
  unfold bop in H. rewrite Hb in H. inversion H; subst t; clear H; simpl.
  split; [auto|]. intros x o Hx Ho.
  destruct (HF x Hx) as (Y & EY & HY).
  destruct Hls as [Hsp _]. pose proof (ravel_lt _ _ Ho) as Hc.
  pose proof (Hsp _ _ _ _ _ EY (ravel outs o) Hc) as Hsolve.
  exists (fun a => Y a (ravel outs o)). split.
  - intros a Ha. specialize (Hsolve a Ha). unfold slice2 in Hsolve.
    rewrite (reshape_flat2 _ _ _ _ _ _ _ _ HC ECf) in Hsolve by auto.
    rewrite unravel_ravel in Hsolve by auto. rewrite <- Hsolve.
    apply rsum_ext; intros b Hb'. unfold Kmat.
    rewrite <- (reshape_flat2 _ _ _ _ _ _ _ _ HK EKf) by auto. reflexivity.
  - intros e He.
    rewrite HO, bidx_suffix by (apply inb_app; auto).
    rewrite Sr2, bidx_id by (repeat apply inb_app; auto).
    f_equal. rewrite (reshape_unflat2 _ _ _ _ _ _ _ _ Sr Er2) by auto.
    rewrite Hr. apply rsum_ext; intros a Ha. simpl. rewrite swap_last_app2, HY.
    rewrite (reshape_flat2 _ _ _ _ _ _ _ _ HC ECf) by (auto; apply ravel_lt; auto).
    rewrite unravel_ravel by auto. reflexivity.
Qed.

Lemma diagonal_variance_total Kin Kcross Kout bs ins outs :
  shape Kin = bs ++ ins ++ ins -> shape Kcross = bs ++ ins ++ outs -> shape Kout = outs ++ outs ->
  (forall x, inb bs x -> nonsingular (nprod ins) (Kmat Kin ins x)) ->
  exists t, diagonal_variance ls Kin Kcross Kout (List.length bs) = Ok t.
Proof.
  intros HK HC HO Hns. rewrite (diagonal_variance_unfold _ _ _ bs ins outs) by auto.
  destruct (reshape_ok Kin (bs ++ [nprod ins; nprod ins])) as [Kf EKf].
  { rewrite HK, !nprod_app, nprod2. lia. }
  destruct (reshape_ok Kcross (bs ++ [nprod ins; nprod outs])) as [Cf ECf].
  { rewrite HC, !nprod_app, nprod2. lia. }
  rewrite EKf, ECf; simpl.
  pose proof (reshape_shape _ _ _ EKf) as SKf.
  pose proof (reshape_shape _ _ _ ECf) as SCf.
  destruct (np_solve_ok ls Kf Cf _ _ _ SKf SCf) as [F EF].
  { intros x Hx. apply Hls. intros v Hv j Hj. apply (Hns x Hx v); auto.
    apply (solves_ext _ (slice2 Kf x)); auto. intros a b Ha Hb. unfold slice2, Kmat.
    apply (reshape_flat2 _ _ _ _ _ _ _ _ HK EKf); auto. }
  rewrite EF; simpl.
  destruct (np_solve_inv ls _ _ _ _ _ _ SKf SCf EF) as [SF HF].
  assert (SsF : shape (swapaxes_last F) = bs ++ [nprod outs; nprod ins]).
  { simpl. rewrite SF. apply swap_last_app2. }
  destruct (np_matmul_inv _ _ _ _ _ _ SsF SCf) as (r & Er & Sr & Hr).
  rewrite Er; simpl.
  destruct (reshape_ok r (bs ++ outs ++ outs)) as [r2 Er2].
  { rewrite Sr, !nprod_app, nprod2; lia. }
  rewrite Er2; simpl. unfold bop.
  assert (Hb : bshape (shape Kout) (shape r2) = Some (bs ++ outs ++ outs)).
  { rewrite HO, (reshape_shape _ _ _ Er2). unfold bshape.
    rewrite (rev_app_distr bs). 
    assert (forall a b, brev a (a ++ b) = Some (a ++ b)) as Hp.
    { induction a as [|c a IH]; intros b; simpl; [destruct b; auto|]. rewrite IH, Nat.eqb_refl; auto. }
    rewrite Hp; simpl. rewrite rev_app_distr, !rev_involutive; auto. }
  rewrite Hb. eauto.
Qed.
End Mean.
