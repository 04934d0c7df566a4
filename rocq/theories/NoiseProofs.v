(** Lemmas about [NoiseModel]. *)
From Coq Require Import Lia Lra.
From Verif Require Import Base BaseFacts NdModel NdFacts RSum LinAlgModel LinAlgSpec LinAlgFacts NoiseModel.
Local Open Scope R_scope.

Lemma bop_suffix {A B C} (f : A -> B -> C) x y pre :
  shape x = pre ++ shape y ->
  exists t, bop f x y = Ok t /\ shape t = shape x /\
    forall p idx, inb pre p -> inb (shape y) idx -> at_ t (p ++ idx) = f (at_ x (p ++ idx)) (at_ y idx).
Proof.
  intros Hs. unfold bop. rewrite Hs, bshape_suffix. eexists; split; [reflexivity|]. simpl. split; auto.
  intros p idx Hp Hi. rewrite bidx_id by (apply inb_app; auto). rewrite bidx_suffix by auto. auto.
Qed.

Lemma homoscedastic3 Kin v b n : shape Kin = [b; n; n]%nat ->
  exists K, homoscedastic_perturb Kin v = Ok K /\ shape K = [b; n; n]%nat /\
    forall x i j, (x < b)%nat -> (i < n)%nat -> (j < n)%nat ->
      at_ K [x; i; j] = at_ Kin [x; i; j] + (if Nat.eqb i j then v else 0).
Proof.
  intros Hs. unfold homoscedastic_perturb. rewrite Hs.
  destruct (bop_suffix Rplus Kin (ndmap (Rmult v) (eye n)) [b]) as (t & Et & St & Ht); [rewrite Hs; auto|].
  exists t. split; [auto|]. split; [congruence|]. intros x i j Hx Hi Hj.
  specialize (Ht [x] [i; j]). simpl in Ht. rewrite Ht.
  - destruct (Nat.eqb i j); f_equal; ring.
  - apply inb1; auto.
  - apply inb2; auto.
Qed.

Lemma reshape5 (Kin flat : nd R) b p n :
  shape Kin = [b; p; n; p; n]%nat -> reshape Kin [b; (p * n)%nat; (p * n)%nat] = Ok flat ->
  forall x i j k l, (x < b)%nat -> (i < p)%nat -> (j < n)%nat -> (k < p)%nat -> (l < n)%nat ->
  at_ flat [x; (i * n + j)%nat; (k * n + l)%nat] = at_ Kin [x; i; j; k; l].
Proof.
  intros Hs Hr x i j k l Hx Hi Hj Hk Hl. apply (reshape_at _ _ _ _ _ Hr).
  - rewrite Hs. apply inb5; auto.
  - rewrite Hs. cbn [ravel]. rewrite !nprod_cons, nprod0. nia.
Qed.

Lemma reshape5_back (flat t : nd R) b p n :
  shape flat = [b; (p * n)%nat; (p * n)%nat] -> reshape flat [b; p; n; p; n]%nat = Ok t ->
  forall x i j k l, (x < b)%nat -> (i < p)%nat -> (j < n)%nat -> (k < p)%nat -> (l < n)%nat ->
  at_ t [x; i; j; k; l] = at_ flat [x; (i * n + j)%nat; (k * n + l)%nat].
Proof.
  intros Hs Hr x i j k l Hx Hi Hj Hk Hl. apply (reshape_at _ _ _ _ _ Hr).
  - rewrite Hs. apply inb3; auto; nia.
  - rewrite Hs. cbn [ravel]. rewrite !nprod_cons, nprod0. nia.
Qed.

Lemma flat_eqb p n i j k l : (i < p)%nat -> (j < n)%nat -> (k < p)%nat -> (l < n)%nat ->
  Nat.eqb (i * n + j) (k * n + l) = Nat.eqb i k && Nat.eqb j l.
Proof.
  intros Hi Hj Hk Hl.
  destruct (Nat.eqb_spec i k) as [->|Hne]; simpl.
  - destruct (Nat.eqb_spec j l) as [->|Hne]; [apply Nat.eqb_refl|]. apply Nat.eqb_neq; lia.
  - apply Nat.eqb_neq. intros E.
    assert ((i * n + j) / n = (k * n + l) / n)%nat as E2 by congruence.
    rewrite !Nat.div_add_l, !Nat.div_small in E2 by lia. lia.
Qed.

Lemma homoscedastic5 Kin v b p n : shape Kin = [b; p; n; p; n]%nat ->
  exists K, homoscedastic_perturb Kin v = Ok K /\ shape K = [b; p; n; p; n]%nat /\
    forall x i j k l, (x < b)%nat -> (i < p)%nat -> (j < n)%nat -> (k < p)%nat -> (l < n)%nat ->
      at_ K [x; i; j; k; l] = at_ Kin [x; i; j; k; l] + (if Nat.eqb i k && Nat.eqb j l then v else 0).
Proof.
  intros Hs. unfold homoscedastic_perturb. rewrite Hs, !Nat.eqb_refl; cbn [negb].
  destruct (reshape_ok Kin [b; (p * n)%nat; (p * n)%nat]) as [flat Ef].
  { rewrite Hs, !nprod_cons, nprod0; ring. }
  rewrite Ef; cbn [bind]. pose proof (reshape_shape _ _ _ Ef) as Sf.
  destruct (bop_suffix Rplus flat (ndmap (Rmult v) (eye (p * n))) [b]) as (t & Et & St & Ht); [rewrite Sf; auto|].
  rewrite Et; cbn [bind].
  destruct (reshape_ok t [b; p; n; p; n]) as [K EK].
  { rewrite St, Sf, !nprod_cons, nprod0; ring. }
  exists K. split; auto. split; [apply (reshape_shape _ _ _ EK)|].
  intros x i j k l Hx Hi Hj Hk Hl. rewrite Sf in St.
  rewrite (reshape5_back _ _ _ _ _ St EK) by auto.
  specialize (Ht [x] [(i * n + j)%nat; (k * n + l)%nat]). simpl app in Ht. rewrite Ht.
  - rewrite (reshape5 _ _ _ _ _ Hs Ef) by auto. simpl at_. rewrite (flat_eqb p) by auto.
    destruct (Nat.eqb i k && Nat.eqb j l); f_equal; ring.
  - apply inb1; auto.
  - simpl shape. apply inb2; nia.
Qed.

Lemma homoscedastic_bad_ndim Kin v : List.length (shape Kin) <> 3%nat -> List.length (shape Kin) <> 5%nat ->
  homoscedastic_perturb Kin v = Err ValueError.
Proof.
  unfold homoscedastic_perturb. intros H3 H5.
  destruct (shape Kin) as [|a [|b [|c [|d [|e [|f l]]]]]]; simpl in *; auto; congruence.
Qed.

Lemma shear33 Kin v b n : shape Kin = [b; 3; n; 3; n]%nat ->
  exists K, shear_perturb33 Kin v = Ok K /\ shape K = [b; 3; n; 3; n]%nat /\
    forall x i j k l, (x < b)%nat -> (i < 3)%nat -> (j < n)%nat -> (k < 3)%nat -> (l < n)%nat ->
      at_ K [x; i; j; k; l] = at_ Kin [x; i; j; k; l] +
        (if Nat.eqb i k && Nat.eqb j l then (if Nat.eqb i 0 then 2 * v else v) else 0).
Proof.
  intros Hs. unfold shear_perturb33. rewrite Hs, !Nat.eqb_refl; cbn [negb].
  destruct (reshape_ok Kin [b; (3 * n)%nat; (3 * n)%nat]) as [flat Ef].
  { rewrite Hs, !nprod_cons, nprod0; ring. }
  rewrite Ef; cbn [bind]. pose proof (reshape_shape _ _ _ Ef) as Sf.
  match goal with |- context [bop Rplus flat ?d] =>
    destruct (bop_suffix Rplus flat d [b]) as (t & Et & St & Ht) end.
  { rewrite Sf; simpl. repeat f_equal; lia. }
  rewrite Et; cbn [bind].
  destruct (reshape_ok t [b; 3; n; 3; n]%nat) as [K EK].
  { rewrite St, Sf, !nprod_cons, nprod0; ring. }
  exists K. split; auto. split; [apply (reshape_shape _ _ _ EK)|].
  intros x i j k l Hx Hi Hj Hk Hl. rewrite Sf in St.
  rewrite (reshape5_back _ _ _ _ _ St EK) by auto.
  specialize (Ht [x] [(i * n + j)%nat; (k * n + l)%nat]). simpl app in Ht. rewrite Ht.
  - rewrite (reshape5 _ _ _ _ _ Hs Ef) by auto. simpl at_. rewrite (flat_eqb 3) by auto.
    destruct (Nat.eqb i k && Nat.eqb j l); f_equal.
    destruct (Nat.ltb_spec (i * n + j) n) as [H|H]; destruct (Nat.eqb_spec i 0) as [E|E]; try ring; exfalso; nia.
  - apply inb1; auto.
  - simpl shape. apply inb2; nia.
Qed.

Lemma shear33_bad Kin v :
  (List.length (shape Kin) <> 5%nat -> shear_perturb33 Kin v = Err ValueError) /\
  (forall b p n p2 n2, shape Kin = [b; p; n; p2; n2]%nat -> (n <> n2 \/ p <> p2 \/ p <> 3%nat) ->
     shear_perturb33 Kin v = Err AssertionError).
Proof.
  unfold shear_perturb33; split.
  - intros H. destruct (shape Kin) as [|a [|b [|c [|d [|e [|f l]]]]]]; simpl in *; auto; congruence.
  - intros b p n p2 n2 Hs H. rewrite Hs.
    destruct (Nat.eqb_spec n n2); cbn [negb]; auto.
    destruct (Nat.eqb_spec p p2); cbn [negb]; auto.
    destruct (Nat.eqb_spec p 3); cbn [negb]; auto. lia.
Qed.

Lemma heteroscedastic3 Kin noise b n : shape Kin = [b; n; n]%nat -> shape noise = [b; n]%nat ->
  (0 < b)%nat -> (0 < n)%nat ->
  exists K, heteroscedastic_perturb Kin noise = Ok K /\ shape K = [b; n; n]%nat /\
    forall x i j, (x < b)%nat -> (i < n)%nat -> (j < n)%nat ->
      at_ K [x; i; j] = at_ Kin [x; i; j] + (if Nat.eqb i j then at_ noise [x; i] else 0).
Proof.
  intros Hs Hn Hb Hn0. unfold heteroscedastic_perturb. rewrite Hs.
  destruct (Nat.eqb_spec b 0); [lia|]. destruct (Nat.eqb_spec (b * n) 0); [nia|]. rewrite Nat.ltb_irrefl.
  rewrite Hn, nprod2, Nat.eqb_refl. eexists; split; [reflexivity|]. split; [auto|].
  intros x i j Hx Hi Hj. cbn [at_].
  destruct (Nat.eqb_spec i j) as [->|Hne]; cbn [andb]; [|ring].
  destruct (Nat.ltb_spec j n); [|lia]. f_equal. f_equal.
  rewrite <- (unravel_ravel [b; n] [x; j]) by (apply inb2; auto).
  f_equal. cbn [ravel]. rewrite nprod1, nprod0. lia.
Qed.

Lemma heteroscedastic_all Kin noise b n : shape Kin = [b; n; n]%nat -> shape noise = [b; n]%nat -> (0 < b)%nat ->
  exists K, heteroscedastic_perturb Kin noise = Ok K /\ shape K = [b; n; n]%nat /\
    forall x i j, (x < b)%nat -> (i < n)%nat -> (j < n)%nat ->
      at_ K [x; i; j] = at_ Kin [x; i; j] + (if Nat.eqb i j then at_ noise [x; i] else 0).
Proof.
  intros Hs Hn Hb. destruct n as [|n]; [|apply heteroscedastic3; auto; lia].
  exists Kin. unfold heteroscedastic_perturb. rewrite Hs. destruct (Nat.eqb_spec b 0); [lia|].
  rewrite Nat.mul_0_r, Hn, nprod2, Nat.mul_0_r. split; [reflexivity|]. split; [reflexivity|]. intros; lia.
Qed.
Lemma heteroscedastic_empty Kin noise n n' : shape Kin = [O; n; n'] -> heteroscedastic_perturb Kin noise = Err IndexError.
Proof. intros H. unfold heteroscedastic_perturb. rewrite H. reflexivity. Qed.
