(** Prediction with shear models is kriging with the covariances of the stacked observables. *)
From Coq Require Import Lia Lra.
From Coquelicot Require Import Coquelicot.
From Verif Require Import Base BaseFacts NdModel NdFacts RSum LinAlgModel LinAlgSpec LinAlgFacts GPModel GPProofs NoiseModel NoiseProofs
  MuyGPSModel GPSpec MuyGPSProofs GPTheorems WellPosedProofs TensorModel TensorSpec TensorProofs KernelSpec KernelLemmas
  ShearModel ShearSpec ShearFlowSpec ShearProofs ShearLemmas ShearPsd ShearGram.
Local Open Scope R_scope.

(** ** Stacked posterior of five-axis tensors *)
Section S.
Variable ls : lsolver.
Hypothesis Hls : exact_solver ls.

Lemma solves_flat K C n p b q x o w : (0 < n)%nat -> shape (A:=R) K = [b; p; n; p; n]%nat -> shape (A:=R) C = [b; p; n; q]%nat ->
  solves (nprod [p; n]) (Kmat K [p; n] [x]) w (fun a => at_ C ([x] ++ unravel [p; n] a ++ [o])) ->
  solves (p * n) (flat5 K n x) w (fun a => at_ C [x; (a / n)%nat; (a mod n)%nat; o]).
Proof.
  intros Hn HK HC H i Hi. rewrite nprod2 in H. specialize (H i Hi). cbn beta in H.
  rewrite (unravel2 p n i) in H by auto. cbn [app] in H. rewrite <- H.
  apply rsum_ext. intros j Hj. rewrite Kmat_flat5 by auto. reflexivity.
Qed.

Lemma mean5 K C T b p n q : (0 < n)%nat -> shape K = [b; p; n; p; n]%nat -> shape C = [b; p; n; q]%nat -> shape T = [b; p; n]%nat ->
  (forall x, (x < b)%nat -> nonsingular (p * n) (flat5 K n x)) ->
  exists t, posterior_mean ls K C T = Ok t /\ shape t = [b; q]%nat /\
    forall x o, (x < b)%nat -> (o < q)%nat ->
      kriging (p * n) (flat5 K n x) (fun a => at_ C [x; (a / n)%nat; (a mod n)%nat; o])
        (fun a => at_ T [x; (a / n)%nat; (a mod n)%nat]) (at_ t [x; o]).
Proof.
  intros Hn HK HC HT Hns.
  assert (Hnc : no_coincidence [] [p; n]) by (split; cbn; intros; lia).
  destruct (posterior_mean_total ls Hls K C T [b] [p; n] [q] []) as [t Et]; auto; [discriminate| |].
  { intros x Hx. apply inb_inv1 in Hx as (x' & -> & Hx). rewrite nprod2.
    apply (nonsingular_ext _ (flat5 K n x')); [intros; symmetry; apply Kmat_flat5; auto|auto]. }
  exists t. split; auto.
  destruct (posterior_mean_correct ls Hls K C T [b] [p; n] [q] [] t) as [St Ht]; auto; [discriminate|].
  split; auto. intros x o Hx Ho.
  destruct (Ht [x] [o] (inb1 _ _ Hx) (inb1 _ _ Ho)) as (w & Hw & Hv).
  exists w. split; [apply (solves_flat K C n p b q x o w); auto|].
  specialize (Hv [] inb_nil). cbn [app] in Hv. rewrite Hv. unfold dot. rewrite nprod2.
  apply rsum_ext. intros a _. rewrite (unravel2 p n a) by auto. reflexivity.
Qed.

Lemma var5 K C Ko b p n q : (0 < n)%nat -> shape K = [b; p; n; p; n]%nat -> shape C = [b; p; n; q]%nat -> shape Ko = [q; q]%nat ->
  (forall x, (x < b)%nat -> nonsingular (p * n) (flat5 K n x)) ->
  exists t, diagonal_variance ls K C Ko 1 = Ok t /\ shape t = [b; q; q]%nat /\
    forall x o, (x < b)%nat -> (o < q)%nat ->
      exists w, solves (p * n) (flat5 K n x) w (fun a => at_ C [x; (a / n)%nat; (a mod n)%nat; o]) /\
      forall o', (o' < q)%nat -> at_ t [x; o; o'] = at_ Ko [o; o'] -
        dot (p * n) w (fun a => at_ C [x; (a / n)%nat; (a mod n)%nat; o']).
Proof.
  intros Hn HK HC HO Hns.
  destruct (diagonal_variance_total ls Hls K C Ko [b] [p; n] [q]) as [t Et]; auto.
  { intros x Hx. apply inb_inv1 in Hx as (x' & -> & Hx). rewrite nprod2.
    apply (nonsingular_ext _ (flat5 K n x')); [intros; symmetry; apply Kmat_flat5; auto|auto]. }
  exists t. split; auto.
  destruct (diagonal_variance_correct ls Hls K C Ko [b] [p; n] [q] t) as [St Ht]; auto.
  split; auto. intros x o Hx Ho.
  destruct (Ht [x] [o] (inb1 _ _ Hx) (inb1 _ _ Ho)) as (w & Hw & Hv).
  exists w. split; [apply (solves_flat K C n p b q x o w); auto|].
  intros o' Ho'. specialize (Hv [o'] (inb1 _ _ Ho')). cbn [app] in Hv. rewrite Hv. unfold dot. rewrite nprod2. f_equal.
  apply rsum_ext. intros a _. rewrite (unravel2 p n a) by auto. reflexivity.
Qed.
End S.

(** ** Tensors from indices *)
Lemma call_pairwise km cur diffs b n : shape diffs = [b; n; n; 2]%nat -> b <> 1%nat -> n <> 1%nat ->
  exists K, shear_call km cur diffs = Ok K /\ shape K = [b; observed km; n; observed km; n]%nat /\
    forall x a i c j, (x < b)%nat -> (a < observed km)%nat -> (i < n)%nat -> (c < observed km)%nat -> (j < n)%nat ->
      at_ K [x; a; i; c; j] = cform cur (unobserved km + a) (unobserved km + c) (at_ diffs [x; i; j; 0%nat]) (at_ diffs [x; i; j; 1%nat]).
Proof.
  intros. destruct km; cbn [shear_call observed unobserved Nat.add].
  - apply (call33_pairwise cur None true); auto.
  - apply (call23_pairwise cur None true); auto.
Qed.
Lemma call_crosswise km cur diffs b n : shape diffs = [b; n; 2]%nat -> b <> 1%nat -> n <> 1%nat -> b <> n ->
  exists K, shear_call km cur diffs = Ok K /\ shape K = [b; observed km; n; 3]%nat /\
    forall x a i c, (x < b)%nat -> (a < observed km)%nat -> (i < n)%nat -> (c < 3)%nat ->
      at_ K [x; a; i; c] = cform cur (unobserved km + a) c (at_ diffs [x; i; 0%nat]) (at_ diffs [x; i; 1%nat]).
Proof.
  intros. destruct km; cbn [shear_call observed unobserved Nat.add].
  - apply (call33_crosswise cur None); auto.
  - apply (call23_crosswise cur None); auto.
Qed.

Lemma tensors_ok km cur test train targets ix nn m n b k : cur <> 0 ->
  shear_inputs test train targets ix nn m n b k ->
  exists Kin Kcross T, shear_tensors km cur test train targets ix nn = Ok (Kin, Kcross, T) /\
    shape Kin = [b; observed km; k; observed km; k]%nat /\ shape Kcross = [b; observed km; k; 3]%nat /\
    shape T = [b; observed km; k]%nat /\
    forall x r rows, (x < b)%nat -> selects m (at_ ix [x]) r -> (forall i, (i < k)%nat -> selects n (at_ nn [x; i]) (rows i)) ->
      let pt := fun i => feature train (rows i) in
      (forall p q, (p < observed km * k)%nat -> (q < observed km * k)%nat ->
         flat5 Kin k x p q = stacked_cov cur (unobserved km) k pt p q) /\
      (forall p o, (p < observed km * k)%nat -> (o < 3)%nat ->
         at_ Kcross [x; (p / k)%nat; (p mod k)%nat; o] = stacked_cross cur (unobserved km) k pt (feature test r) o p) /\
      (forall p, (p < observed km * k)%nat ->
         at_ T [x; (p / k)%nat; (p mod k)%nat] = at_ targets [rows (p mod k)%nat; (unobserved km + p / k)%nat]).
Proof.
  intros Hl [S1 S2 S3 S4 S5 I1 I2 Hb Hk Hbk].
  destruct (crosswise_spec test train ix nn m n b k) as (c & Ec & Sc & Ac); auto.
  1:{ right; eauto. } 1:{ right; eauto. } 1:{ unfold ndim; rewrite S1, S2; auto. } 1:{ unfold feature_count; rewrite S1, S2; auto. }
  destruct (pairwise_spec train nn n b k) as (p & Ep & Sp & Ap); auto.
  1:{ right; eauto. }
  assert (F1 : feature_count test = 2%nat) by (unfold feature_count; rewrite S1; auto).
  assert (F2 : feature_count train = 2%nat) by (unfold feature_count; rewrite S2; auto).
  rewrite F1 in Sc, Ac. rewrite F2 in Sp, Ap.
  destruct (take_ok targets nn n [3%nat] S3) as (T & ET & ST & AT).
  { intros idx Hi. rewrite S5 in Hi. apply inb_inv2 in Hi as (x & i & -> & Hx & Hi'). auto. }
  destruct (call_crosswise km cur c b k Sc) as (Kc & EKc & SKc & AKc); auto; [lia|].
  destruct (call_pairwise km cur p b k Sp) as (Ki & EKi & SKi & AKi); auto; [lia|].
  exists Ki, Kc, (drop_rows (unobserved km) (swapaxes_last T)).
  split. { unfold shear_tensors. rewrite Ec; cbn [bind]. rewrite Ep; cbn [bind]. rewrite ET; cbn [bind]. rewrite EKc; cbn [bind]. rewrite EKi; reflexivity. }
  split; auto. split; auto. rewrite S5 in ST. cbn [app] in ST.
  assert (SS : shape (swapaxes_last T) = [b; 3; k]%nat) by (unfold swapaxes_last; cbn [shape]; rewrite ST; reflexivity).
  split. { unfold drop_rows. rewrite SS. destruct km; reflexivity. }
  intros x r rows Hx Hr Hrows pt. split; [|split].
  - intros a q Ha Hq. destruct (divmod_lt _ _ _ Ha) as (_ & A1 & A2). destruct (divmod_lt _ _ _ Hq) as (_ & Q1 & Q2).
    unfold flat5. rewrite AKi by auto.
    rewrite !(Ap x (a mod k) (q mod k) _ (rows (a mod k)) (rows (q mod k)))%nat by auto.
    unfold stacked_cov. rewrite <- cform_cov by auto. reflexivity.
  - intros a o Ha Ho. destruct (divmod_lt _ _ _ Ha) as (_ & A1 & A2).
    rewrite AKc by auto. rewrite !(Ac x (a mod k) _ r (rows (a mod k)))%nat by auto.
    unfold stacked_cross. rewrite <- cform_cov by auto. rewrite <- cform_neg. f_equal; unfold pt; ring.
  - intros a Ha. destruct (divmod_lt _ _ _ Ha) as (_ & A1 & A2).
    unfold drop_rows. rewrite SS. cbn [at_]. unfold swapaxes_last. cbn [at_ swap_last rev app].
    pose proof (AT [x; (a mod k)%nat] [(unobserved km + a / k)%nat] (rows (a mod k)%nat)) as Q.
    cbn [app] in Q. rewrite S5 in Q. rewrite <- Q; auto using inb2.
Qed.

Lemma perturb_flat noise km k d Kin b : (0 < k)%nat -> stacked_noise noise km k d ->
  shape Kin = [b; observed km; k; observed km; k]%nat ->
  exists K, perturb noise Kin None = Ok K /\ shape K = [b; observed km; k; observed km; k]%nat /\
    forall x p q, (x < b)%nat -> (p < observed km * k)%nat -> (q < observed km * k)%nat ->
      flat5 K k x p q = plus_diag (flat5 Kin k x) d p q.
Proof.
  intros Hk Hd HK.
  assert (HP : exists K, perturb noise Kin None = Ok K /\ shape K = [b; observed km; k; observed km; k]%nat /\
    exists dd, (forall p, (p < observed km * k)%nat -> d p = dd (p / k)%nat) /\
    forall x i j c l, (x < b)%nat -> (i < observed km)%nat -> (j < k)%nat -> (c < observed km)%nat -> (l < k)%nat ->
      at_ K [x; i; j; c; l] = at_ Kin [x; i; j; c; l] + (if Nat.eqb i c && Nat.eqb j l then dd i else 0)).
  { destruct noise as [v|t|v|]; cbn [stacked_noise] in Hd; try (destruct km; contradiction).
    - subst d. cbn [perturb]. destruct (homoscedastic5 Kin v b (observed km) k HK) as (K & EK & SK & HKv).
      exists K. split; auto. split; auto. exists (fun _ => v). auto.
    - destruct km; [|contradiction]. subst d. cbn [perturb observed] in *.
      destruct (shear33 Kin v b k HK) as (K & EK & SK & HKv).
      exists K. split; auto. split; auto. exists (fun i => if Nat.eqb i 0 then 2 * v else v). split; auto.
      intros p Hp. unfold shear_noise. destruct (Nat.ltb_spec p k) as [L|L].
      + rewrite Nat.div_small by auto. reflexivity.
      + destruct (p / k)%nat eqn:E; [|reflexivity].
        apply Nat.div_small_iff in E; lia. }
  destruct HP as (K & EK & SK & dd & Hdd & HKv). exists K. split; auto. split; auto.
  intros x p q Hx Hp Hq.
  destruct (divmod_lt _ _ _ Hp) as (_ & H1 & H2). destruct (divmod_lt _ _ _ Hq) as (_ & H3 & H4).
  unfold flat5 at 1, plus_diag, flat5. rewrite HKv by auto. f_equal.
  rewrite <- (flat_eqb (observed km) k) by auto.
  replace (p / k * k + p mod k)%nat with p by (pose proof (Nat.div_mod p k); lia).
  replace (q / k * k + q mod k)%nat with q by (pose proof (Nat.div_mod q k); lia).
  rewrite Hdd by auto. reflexivity.
Qed.

Lemma stacked_psd l s k pt n : 0 < l -> psd n (stacked_cov l s k pt).
Proof.
  intros Hl. apply (psd_ext n (fun i j => cform l (s + i / k) (s + j / k)
     (pt (i mod k)%nat 0%nat - pt (j mod k)%nat 0%nat) (pt (i mod k)%nat 1%nat - pt (j mod k)%nat 1%nat))).
  - intros i j _ _. unfold stacked_cov. apply cform_cov. lra.
  - apply (shear_gram_psd l n (fun i => s + i / k)%nat (fun i => pt (i mod k)%nat) Hl).
Qed.

Lemma joint_stacked_psd l s k pt test o n : 0 < l ->
  psd (S n) (joint (shear_cov l (obs o) (obs o) test test) (stacked_cross l s k pt test o) (stacked_cov l s k pt)).
Proof.
  intros Hl.
  set (ob := fun i => match i with O => o | S i' => (s + i' / k)%nat end).
  set (P := fun i => match i with O => test | S i' => pt (i' mod k)%nat end).
  apply (psd_ext (S n) (fun i j => cform l (ob i) (ob j) (P i 0%nat - P j 0%nat) (P i 1%nat - P j 1%nat))).
  - intros i j _ _. rewrite cform_cov by lra. destruct i as [|i], j as [|j]; cbn [joint ob P]; try reflexivity.
    unfold stacked_cross. apply cov_sym. lra.
  - apply (shear_gram_psd l (S n) ob P Hl).
Qed.

(** ** The prediction theorems *)
Lemma shear_predict_ok ls : exact_solver ls -> forall km l noise d test train targets ix nn m n b k,
  0 < l -> shear_inputs test train targets ix nn m n b k -> stacked_noise noise km k d ->
  (forall p, (p < observed km * k)%nat -> 0 < d p) ->
  exists t, shear_predict ls km l noise test train targets ix nn = Ok t /\ shape t = [b; 3]%nat /\
    forall x r rows o, (x < b)%nat -> (o < 3)%nat -> selects m (at_ ix [x]) r ->
      (forall i, (i < k)%nat -> selects n (at_ nn [x; i]) (rows i)) ->
      let pt := fun i => feature train (rows i) in
      kriging (observed km * k) (plus_diag (stacked_cov l (unobserved km) k pt) d)
        (stacked_cross l (unobserved km) k pt (feature test r) o)
        (fun p => at_ targets [rows (p mod k)%nat; (unobserved km + p / k)%nat]) (at_ t [x; o]).
Proof.
  intros Hls km l noise d test train targets ix nn m n b k Hl Hin Hno Hd.
  assert (Hk : (0 < k)%nat) by (destruct Hin; lia).
  destruct (tensors_ok km l test train targets ix nn m n b k ltac:(lra) Hin) as (Kin & Kc & T & ET & SK & SC & ST & HT).
  destruct (perturb_flat noise km k d Kin b Hk Hno SK) as (K & EK & SK' & HK).
  assert (SEL : forall x, (x < b)%nat -> exists r rows, selects m (at_ ix [x]) r /\ forall i, (i < k)%nat -> selects n (at_ nn [x; i]) (rows i)).
  { intros x Hx. destruct (in_range_selects m (at_ ix [x])) as [r Hr]; [apply (si_ixok _ _ _ _ _ _ _ _ _ Hin); auto|].
    assert (G : forall j, (j <= k)%nat -> exists rows, forall i, (i < j)%nat -> selects n (at_ nn [x; i]) (rows i)).
    { induction j as [|j IH]; intros Hj; [exists (fun _ => O); intros; lia|].
      destruct IH as [rows Hrows]; [lia|]. destruct (in_range_selects n (at_ nn [x; j])) as [r' Hr'].
      { apply (si_nnok _ _ _ _ _ _ _ _ _ Hin); auto. }
      exists (fun i => if (i =? j)%nat then r' else rows i). intros i Hi.
      destruct (Nat.eqb_spec i j); [subst; auto|apply Hrows; lia]. }
    destruct (G k (Nat.le_refl k)) as [rows Hrows]. exists r, rows. auto. }
  destruct (mean5 ls Hls K Kc T b (observed km) k 3 Hk SK' SC ST) as (t & Et & St & Ht).
  { intros x Hx. destruct (SEL x Hx) as (r & rows & Hr & Hrows).
    destruct (HT x r rows Hx Hr Hrows) as (H1 & _ & _).
    apply (nonsingular_ext _ (plus_diag (stacked_cov l (unobserved km) k (fun i => feature train (rows i))) d)).
    - intros p q Hp Hq. rewrite HK by auto. unfold plus_diag. rewrite H1 by auto. reflexivity.
    - apply pd_nonsingular, plus_diag_pd; auto. apply stacked_psd; auto. }
  exists t. split. { unfold shear_predict. rewrite ET. cbn [bind]. rewrite EK. cbn [bind]. exact Et. }
  split; auto. intros x r rows o Hx Ho Hr Hrows pt.
  destruct (HT x r rows Hx Hr Hrows) as (H1 & H2 & H3).
  destruct (Ht x o Hx Ho) as (w & Hw & Hv). exists w. split.
  - intros p Hp. rewrite <- H2 by auto. rewrite <- (Hw p Hp). apply rsum_ext. intros q Hq.
    rewrite HK by auto. unfold plus_diag. rewrite H1 by auto. reflexivity.
  - rewrite Hv. unfold dot. apply rsum_ext. intros p Hp. rewrite H3 by auto. reflexivity.
Qed.

Lemma kout_ok km l : 0 < l -> exists K, (match km with Full33 => shear33_Kout l None | Two23 => shear23_Kout l None end) = Ok K /\
  shape K = [3; 3]%nat /\ forall o o' x, (o < 3)%nat -> (o' < 3)%nat -> at_ K [o; o'] = shear_cov l (obs o) (obs o') x x.
Proof.
  intros Hl. destruct (fn33_zero l) as (K & EK & SK & HK).
  exists K. split; [destruct km; exact EK|]. split; auto.
  intros o o' x Ho Ho'. rewrite HK by auto. rewrite cov_closed by lra. f_equal; ring.
Qed.

Lemma shear_variance_ok ls : exact_solver ls -> forall km l noise d test train targets ix nn m n b k,
  0 < l -> shear_inputs test train targets ix nn m n b k -> stacked_noise noise km k d ->
  (forall p, (p < observed km * k)%nat -> 0 < d p) ->
  exists t, shear_variance ls km l noise test train targets ix nn = Ok t /\ shape t = [b; 3; 3]%nat /\
    forall x r rows o, (x < b)%nat -> (o < 3)%nat -> selects m (at_ ix [x]) r ->
      (forall i, (i < k)%nat -> selects n (at_ nn [x; i]) (rows i)) ->
      let pt := fun i => feature train (rows i) in
      (exists w, solves (observed km * k) (plus_diag (stacked_cov l (unobserved km) k pt) d) w
            (stacked_cross l (unobserved km) k pt (feature test r) o) /\
        forall o', (o' < 3)%nat -> at_ t [x; o; o'] =
          shear_cov l (obs o) (obs o') (feature test r) (feature test r)
          - dot (observed km * k) w (stacked_cross l (unobserved km) k pt (feature test r) o')) /\
      0 <= at_ t [x; o; o] <= shear_cov l (obs o) (obs o) (feature test r) (feature test r).
Proof.
  intros Hls km l noise d test train targets ix nn m n b k Hl Hin Hno Hd.
  assert (Hk : (0 < k)%nat) by (destruct Hin; lia).
  destruct (tensors_ok km l test train targets ix nn m n b k ltac:(lra) Hin) as (Kin & Kc & T & ET & SK & SC & ST & HT).
  destruct (perturb_flat noise km k d Kin b Hk Hno SK) as (K & EK & SK' & HK).
  assert (SEL : forall x, (x < b)%nat -> exists r rows, selects m (at_ ix [x]) r /\ forall i, (i < k)%nat -> selects n (at_ nn [x; i]) (rows i)).
  { intros x Hx. destruct (in_range_selects m (at_ ix [x])) as [r Hr]; [apply (si_ixok _ _ _ _ _ _ _ _ _ Hin); auto|].
    assert (G : forall j, (j <= k)%nat -> exists rows, forall i, (i < j)%nat -> selects n (at_ nn [x; i]) (rows i)).
    { induction j as [|j IH]; intros Hj; [exists (fun _ => O); intros; lia|].
      destruct IH as [rows Hrows]; [lia|]. destruct (in_range_selects n (at_ nn [x; j])) as [r' Hr'].
      { apply (si_nnok _ _ _ _ _ _ _ _ _ Hin); auto. }
      exists (fun i => if (i =? j)%nat then r' else rows i). intros i Hi.
      destruct (Nat.eqb_spec i j); [subst; auto|apply Hrows; lia]. }
    destruct (G k (Nat.le_refl k)) as [rows Hrows]. exists r, rows. auto. }
  destruct (kout_ok km l Hl) as (Ko & EO & SO & HO).
  destruct (var5 ls Hls K Kc Ko b (observed km) k 3 Hk SK' SC SO) as (t & Et & St & Ht).
  { intros x Hx. destruct (SEL x Hx) as (r & rows & Hr & Hrows).
    destruct (HT x r rows Hx Hr Hrows) as (H1 & _ & _).
    apply (nonsingular_ext _ (plus_diag (stacked_cov l (unobserved km) k (fun i => feature train (rows i))) d)).
    - intros p q Hp Hq. rewrite HK by auto. unfold plus_diag. rewrite H1 by auto. reflexivity.
    - apply pd_nonsingular, plus_diag_pd; auto. apply stacked_psd; auto. }
  exists t. split. { unfold shear_variance. rewrite ET. cbn [bind]. rewrite EK. cbn [bind]. rewrite EO. cbn [bind]. exact Et. }
  split; auto. intros x r rows o Hx Ho Hr Hrows pt.
  destruct (HT x r rows Hx Hr Hrows) as (H1 & H2 & H3).
  destruct (Ht x o Hx Ho) as (w & Hw & Hv).
  assert (W : solves (observed km * k) (plus_diag (stacked_cov l (unobserved km) k pt) d) w
            (stacked_cross l (unobserved km) k pt (feature test r) o)).
  { intros p Hp. rewrite <- H2 by auto. rewrite <- (Hw p Hp). apply rsum_ext. intros q Hq.
    rewrite HK by auto. unfold plus_diag. rewrite H1 by auto. reflexivity. }
  assert (V : forall o', (o' < 3)%nat -> at_ t [x; o; o'] =
          shear_cov l (obs o) (obs o') (feature test r) (feature test r)
          - dot (observed km * k) w (stacked_cross l (unobserved km) k pt (feature test r) o')).
  { intros o' Ho'. rewrite Hv by auto. rewrite (HO o o' (feature test r)) by auto. f_equal.
    unfold dot. apply rsum_ext. intros p Hp. rewrite H2 by auto. reflexivity. }
  split; [exists w; auto|].
  apply (c21_bounds (observed km * k) (stacked_cov l (unobserved km) k pt) d
    (stacked_cross l (unobserved km) k pt (feature test r) o) _ w); auto.
  - apply joint_stacked_psd; auto.
  - intros i Hi. apply Rlt_le. auto.
Qed.
