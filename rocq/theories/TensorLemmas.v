(** Lemmas in the exact form of the property theorems C15, C16, and their concrete cases. *)
From Coq Require Import Lia Lra.
From Verif Require Import Base NdModel NdFacts RSum TensorModel TensorSpec TensorProofs.
Local Open Scope R_scope.

Lemma selects_unique n i : ~ out_of_range n i ->
  exists r, selects n i r /\ forall r', selects n i r' -> r' = r.
Proof.
  intros H. destruct (in_range_selects n i H) as [r Hr]. exists r. split; auto.
  intros r' Hr'. apply norm_index_some in Hr. apply norm_index_some in Hr'. congruence.
Qed.

Lemma pairwise_metric data nix n b k :
  dataset data n -> shape nix = [b; k]%nat ->
  (forall x i, (x < b)%nat -> (i < k)%nat -> ~ out_of_range n (at_ nix [x; i])) ->
  exists t u, pairwise_distances L2 data nix = Ok t /\ pairwise_distances F2 data nix = Ok u /\
    shape t = [b; k; k]%nat /\ shape u = [b; k; k]%nat /\
    forall x i j l, (x < b)%nat -> (i < k)%nat -> (j < k)%nat -> (l < k)%nat ->
      0 <= at_ t [x; i; j] /\
      at_ t [x; i; j] = at_ t [x; j; i] /\
      at_ t [x; i; i] = 0 /\
      at_ t [x; i; l] <= at_ t [x; i; j] + at_ t [x; j; l] /\
      at_ u [x; i; j] = at_ t [x; i; j] ^ 2.
Proof.
  intros Hd Sn Hr.
  destruct (pairwise_distances_spec L2 data nix n b k Hd Sn Hr) as [t [Et [St At]]].
  destruct (pairwise_distances_spec F2 data nix n b k Hd Sn Hr) as [u [Eu [Su Au]]].
  exists t, u. repeat (split; [assumption|]). intros x i j l Hx Hi Hj Hl.
  destruct (in_range_selects n _ (Hr x i Hx Hi)) as [ri Ri].
  destruct (in_range_selects n _ (Hr x j Hx Hj)) as [rj Rj].
  destruct (in_range_selects n _ (Hr x l Hx Hl)) as [rl Rl].
  rewrite (At x i j ri rj), (At x j i rj ri), (At x i i ri ri), (At x i l ri rl), (At x j l rj rl),
    (Au x i j ri rj) by auto. unfold mdist.
  repeat split.
  - apply euclid_nonneg.
  - apply euclid_sym.
  - apply euclid_refl.
  - apply euclid_triangle.
  - rewrite euclid_sq. reflexivity.
Qed.

Lemma crosswise_metric data nn_data ix nix n n' b k :
  dataset data n -> dataset nn_data n' -> ndim data = ndim nn_data ->
  feature_count data = feature_count nn_data ->
  shape ix = [b] -> shape nix = [b; k]%nat ->
  (forall x, (x < b)%nat -> ~ out_of_range n (at_ ix [x])) ->
  (forall x i, (x < b)%nat -> (i < k)%nat -> ~ out_of_range n' (at_ nix [x; i])) ->
  exists t u, crosswise_distances L2 data nn_data ix nix = Ok t /\
    crosswise_distances F2 data nn_data ix nix = Ok u /\
    shape t = [b; k]%nat /\ shape u = [b; k]%nat /\
    forall x i r r', (x < b)%nat -> (i < k)%nat ->
      selects n (at_ ix [x]) r -> selects n' (at_ nix [x; i]) r' ->
      0 <= at_ t [x; i] /\ at_ u [x; i] = at_ t [x; i] ^ 2 /\
      (at_ t [x; i] = 0 <-> forall f, (f < feature_count data)%nat -> feature data r f = feature nn_data r' f).
Proof.
  intros Hd Hn En Ef Si Sn Hi Hr.
  destruct (crosswise_distances_spec L2 data nn_data ix nix n n' b k Hd Hn En Ef Si Sn Hi Hr) as [t [Et [St At]]].
  destruct (crosswise_distances_spec F2 data nn_data ix nix n n' b k Hd Hn En Ef Si Sn Hi Hr) as [u [Eu [Su Au]]].
  exists t, u. repeat (split; [assumption|]). intros x i r r' Hx Hii R R'.
  rewrite (At x i r r'), (Au x i r r') by auto. unfold mdist.
  split; [apply euclid_nonneg|]. split; [rewrite euclid_sq; reflexivity|]. apply euclid_zero.
Qed.

Lemma mdist_ext m F x x' y y' :
  (forall f, (f < F)%nat -> x f = x' f) -> (forall f, (f < F)%nat -> y f = y' f) ->
  mdist m F x y = mdist m F x' y'.
Proof.
  intros Hx Hy. assert (E : sqdist F x y = sqdist F x' y').
  { apply rsum_ext. intros f Hf. rewrite Hx, Hy; auto. }
  destruct m; unfold mdist, euclid; rewrite E; auto.
Qed.

Lemma feature_count_shape d d' : shape d' = shape d -> feature_count d' = feature_count d.
Proof. unfold feature_count. intros ->. reflexivity. Qed.
Lemma dataset_shape_eq d d' n : shape d' = shape d -> dataset d n -> dataset d' n.
Proof. unfold dataset. intros ->. auto. Qed.

Lemma pairwise_translate m data data' nix n b k c :
  dataset data n -> shape data' = shape data ->
  (forall r f, (r < n)%nat -> feature data' r f = feature data r f + c f) ->
  shape nix = [b; k]%nat ->
  (forall x i, (x < b)%nat -> (i < k)%nat -> ~ out_of_range n (at_ nix [x; i])) ->
  exists p p', pairwise_distances m data nix = Ok p /\ pairwise_distances m data' nix = Ok p' /\ nd_eq p p'.
Proof.
  intros Hd Hs Hc Sn Hr.
  destruct (pairwise_distances_spec m data nix n b k Hd Sn Hr) as [t [Et [St At]]].
  destruct (pairwise_distances_spec m data' nix n b k (dataset_shape_eq _ _ _ Hs Hd) Sn Hr) as [u [Eu [Su Au]]].
  exists t, u. split; auto. split; auto. split; [congruence|]. intros idx H. rewrite St in H.
  apply inb_inv3 in H. destruct H as [x [i [j [-> [Hx [Hi Hj]]]]]].
  destruct (in_range_selects n _ (Hr x i Hx Hi)) as [ri Ri].
  destruct (in_range_selects n _ (Hr x j Hx Hj)) as [rj Rj].
  rewrite (At x i j ri rj), (Au x i j ri rj) by auto. rewrite (feature_count_shape _ _ Hs).
  rewrite <- (mdist_translate m _ (feature data ri) (feature data rj) c).
  apply mdist_ext; intros; symmetry; apply Hc; [apply Ri|apply Rj].
Qed.

Lemma translation_invariant m data data' nn_data nn_data' ix nix n n' b k c :
  dataset data n -> dataset nn_data n' -> ndim data = ndim nn_data ->
  feature_count data = feature_count nn_data ->
  shape data' = shape data -> shape nn_data' = shape nn_data ->
  (forall r f, (r < n)%nat -> feature data' r f = feature data r f + c f) ->
  (forall r f, (r < n')%nat -> feature nn_data' r f = feature nn_data r f + c f) ->
  shape ix = [b] -> shape nix = [b; k]%nat ->
  (forall x, (x < b)%nat -> ~ out_of_range n (at_ ix [x])) ->
  (forall x i, (x < b)%nat -> (i < k)%nat -> ~ out_of_range n' (at_ nix [x; i])) ->
  exists t t' p p', crosswise_distances m data nn_data ix nix = Ok t /\
    crosswise_distances m data' nn_data' ix nix = Ok t' /\ nd_eq t t' /\
    pairwise_distances m nn_data nix = Ok p /\ pairwise_distances m nn_data' nix = Ok p' /\ nd_eq p p'.
Proof.
  intros Hd Hn En Ef Hs Hs' Hc Hc' Si Sn Hi Hr.
  destruct (pairwise_translate m nn_data nn_data' nix n' b k c Hn Hs' Hc' Sn Hr) as [p [p' [Ep [Ep' Q]]]].
  destruct (crosswise_distances_spec m data nn_data ix nix n n' b k Hd Hn En Ef Si Sn Hi Hr) as [t [Et [St At]]].
  destruct (crosswise_distances_spec m data' nn_data' ix nix n n' b k) as [u [Eu [Su Au]]]; auto.
  { eapply dataset_shape_eq; eauto. }
  { eapply dataset_shape_eq; eauto. }
  { unfold ndim in *. rewrite Hs, Hs'. exact En. }
  { rewrite (feature_count_shape _ _ Hs), (feature_count_shape _ _ Hs'). exact Ef. }
  exists t, u, p, p'. split; auto. split; auto. split; [|auto].
  split; [congruence|]. intros idx H. rewrite St in H. apply inb_inv2 in H.
  destruct H as [x [i [-> [Hx Hii]]]].
  destruct (in_range_selects n _ (Hi x Hx)) as [r Rr].
  destruct (in_range_selects n' _ (Hr x i Hx Hii)) as [ri Ri].
  rewrite (At x i r ri), (Au x i r ri) by auto. rewrite (feature_count_shape _ _ Hs).
  rewrite <- (mdist_translate m _ (feature data r) (feature nn_data ri) c).
  apply mdist_ext; intros; symmetry; [apply Hc, Rr|apply Hc', Ri].
Qed.

(** Four points in the plane, the same as a vector, and an index array with a negative index. *)
Definition ex_data : nd R := mkNd [4; 2]%nat (fun idx =>
  match idx with [r; f] => INR r * (INR f + 1) | _ => 0 end).
Definition ex_data1 : nd R := mkNd [4]%nat (fun idx => match idx with [r] => INR r | _ => 0 end).
Definition ex_nix : nd Z := mkNd [2; 2]%nat (fun idx =>
  match idx with [x; i] => if Nat.eqb i 0 then 1%Z else (-1)%Z | _ => 0%Z end).

Lemma ex_nix_range x i : (x < 2)%nat -> (i < 2)%nat -> ~ out_of_range 4 (at_ ex_nix [x; i]).
Proof. intros. unfold out_of_range. cbn. destruct (Nat.eqb i 0); lia. Qed.

Lemma ex_tensor : dataset ex_data 4 /\ feature_count ex_data = 2%nat /\ shape ex_nix = [2; 2]%nat /\
  (forall x i, (x < 2)%nat -> (i < 2)%nat -> ~ out_of_range 4 (at_ ex_nix [x; i])) /\
  selects 4 (at_ ex_nix [0; 1]%nat) 3 /\
  dataset ex_data1 4 /\ feature_count ex_data1 = 1%nat /\
  exists t, pairwise_tensor ex_data ex_nix = Ok t /\ at_ t [0; 0; 1; 1]%nat = -4 /\
  exists t', pairwise_tensor ex_data1 ex_nix = Ok t' /\ at_ t' [0; 0; 1; 0]%nat = -2.
Proof.
  split; [right; exists 2%nat; reflexivity|]. split; [reflexivity|]. split; [reflexivity|].
  split; [exact ex_nix_range|]. split; [unfold selects; cbn; lia|].
  split; [left; reflexivity|]. split; [reflexivity|].
  destruct (pairwise_spec ex_data ex_nix 4 2 2) as [t [Et [_ At]]];
    [right; exists 2%nat; reflexivity|reflexivity|exact ex_nix_range|].
  exists t. split; auto. split.
  { rewrite (At 0 0 1 1 1 3)%nat; try (cbn; lia); try (unfold selects; cbn; lia).
    unfold feature. cbn. lra. }
  destruct (pairwise_spec ex_data1 ex_nix 4 2 2) as [t' [Et' [_ At']]];
    [left; reflexivity|reflexivity|exact ex_nix_range|].
  exists t'. split; auto.
  rewrite (At' 0 0 1 0 1 3)%nat; try (cbn; lia); try (unfold selects; cbn; lia).
  unfold feature. cbn. lra.
Qed.

Lemma ex_metric : dataset ex_data 4 /\ shape ex_nix = [2; 2]%nat /\
  (exists c data', shape data' = shape ex_data /\ c 1%nat <> 0 /\
     forall r f, (r < 4)%nat -> feature data' r f = feature ex_data r f + c f) /\
  exists t, pairwise_distances L2 ex_data ex_nix = Ok t /\ at_ t [0; 0; 1]%nat <> 0.
Proof.
  split; [right; exists 2%nat; reflexivity|]. split; [reflexivity|]. split.
  - exists (fun f => INR f), (mkNd [4; 2]%nat (fun idx =>
      match idx with [r; f] => INR r * (INR f + 1) + INR f | _ => 0 end)).
    split; [reflexivity|]. split; [cbn; lra|]. intros. reflexivity.
  - destruct (pairwise_distances_spec L2 ex_data ex_nix 4 2 2) as [t [Et [_ At]]];
      [right; exists 2%nat; reflexivity|reflexivity|exact ex_nix_range|].
    exists t. split; auto. rewrite (At 0 0 1 1 3)%nat; try lia; try (unfold selects; cbn; lia).
    unfold mdist. intros H. rewrite euclid_zero in H. specialize (H 0%nat).
    unfold feature in H. cbn in H. specialize (H ltac:(lia)). lra.
Qed.
