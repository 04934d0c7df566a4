(** The GP surrogate meets the surrogate contract; a three-class counterexample. *)
From Coq Require Import Lia Lra.
From Verif Require Import Base BaseFacts NdModel NdFacts RSum LinAlgModel LinAlgSpec LinAlgFacts
  GPModel NoiseModel MuyGPSModel MuyGPSProofs GPSpec GPTheorems TensorModel TensorSpec TensorProofs
  FlowModel FlowSpec FlowProofs ClassifyModel ClassifySpec ClassifyProofs.
Local Open Scope R_scope.

Lemma query_matrix test_nn ix nn k t w N q r : index_matrix test_nn t w N q -> query test_nn ix nn k w r ->
  (forall i, (i < k)%nat -> (r i < t)%nat) ->
  index_matrix nn k w N (fun i j => q (r i) j).
Proof.
  intros [_ H] (_ & Hs & Hq) Hr. split; auto. intros i j Hi Hj.
  destruct (Hq i Hi) as [_ E]. rewrite E by auto. apply H; auto.
Qed.

Lemma gp_answers ls g F kern k test train labels test_nn N M w q C (D : nat -> Prop) :
  exact_solver ls -> (gp_noise g = NullNoise \/ exists v, gp_noise g = HomoscedasticNoise v) ->
  pointwise_kernel F kern k -> dataset test M -> dataset train N -> ndim test = ndim train ->
  feature_count test = F -> feature_count train = F -> shape labels = [N; C] ->
  index_matrix test_nn M w N q -> C <> w ->
  (forall x, (x < M)%nat -> D x -> nonsingular w (nbr_matrix k (gp_noise g) train q x)) ->
  answers (fun ix nn => posterior_mean_from_indices ls g kern ix nn test train labels) test_nn M w C D
    (fun x c v => kriging w (nbr_matrix k (gp_noise g) train q x) (fun j => kcov k test train x (q x j))
                    (fun j => at_ labels [q x j; c]) v).
Proof.
  intros Hls Hg Hk Hd Hd' Hnd HF HF' Hl Hn Hw Hns ix nn kk r Hkk Hq Hr.
  pose proof (query_matrix test_nn ix nn kk M w N q r Hn Hq ltac:(intros i Hi; apply Hr; auto)) as Hnn.
  assert (Hna : forall x y i, noise_at (gp_noise g) None x i = noise_at (gp_noise g) None y i).
  { intros x y i. destruct Hg as [->|[v ->]]; reflexivity. }
  assert (HA : forall i a b, nbr_matrix k (gp_noise g) train (fun i j => q (r i) j) i a b =
                             nbr_matrix k (gp_noise g) train q (r i) a b).
  { intros i a b. unfold nbr_matrix, plus_diag. rewrite (Hna i (r i)). reflexivity. }
  destruct (from_indices_kriging ls Hls g F kern k ix nn test train labels N M kk w (fun i j => q (r i) j) r C)
    as (out & E & So & H); auto.
  { apply Hq. }
  { intros i Hi. split; [apply Hq; auto|apply Hr; auto]. }
  { destruct Hg as [->|[v ->]]; exact I. }
  { intros i Hi. destruct (Hr i Hi). apply (nonsingular_ext w (nbr_matrix k (gp_noise g) train q (r i))); auto. }
  exists out. split; auto. split; auto. intros i c Hi Hc. destruct (H i c Hi Hc) as (wv & H1 & H2).
  exists wv. split; auto. intros a Ha. rewrite <- (H1 a Ha). apply rsum_ext. intros b Hb.
  rewrite HA. reflexivity.
Qed.

(** Training rows of classes 1, 2, 0; the test point's neighbours are the first two. *)
Definition ex_cl (i : nat) : nat := match i with O => 1 | 1 => 2 | _ => 0 end%nat.
Definition ex_labels : nd R := mkNd [3; 3]%nat (fun idx => match idx with
  | [i; c] => if (c =? ex_cl i)%nat then 1 else 0 | _ => 0 end).
Definition ex_two_nn : nd Z := mkNd [1; 2]%nat (fun idx => match idx with [_; j] => Z.of_nat j | _ => 0%Z end).

Lemma ex_labels_one_hot : one_hot ex_labels 3 3 0 1 ex_cl.
Proof.
  split; [lra|]. split; [reflexivity|]. intros i Hi. split; [|reflexivity].
  destruct i as [|[|i]]; cbn; lia.
Qed.
Lemma ex_two_nn_ok : index_matrix ex_two_nn 1 2 3 (fun _ j => j).
Proof. split; [reflexivity|]. intros x j Hx Hj. split; [reflexivity|lia]. Qed.

Lemma classify_refuted : exists labels cl test_nn q,
  one_hot labels 3 3 0 1 cl /\ index_matrix test_nn 1 2 3 q /\ cl (q O O) <> cl (q O 1%nat) /\
  forall surrogate, exists out, classify_any surrogate labels test_nn = Ok out /\
    forall c, (c < 3)%nat -> at_ out [O; c] = if (c =? cl (q O O))%nat then 1 else 0.
Proof.
  exists ex_labels, ex_cl, ex_two_nn, (fun _ j => j).
  split; [exact ex_labels_one_hot|]. split; [exact ex_two_nn_ok|]. split; [cbn; lia|].
  intros surrogate.
  assert (Hag : forall x, agree_first ex_labels 2 (fun _ j => j) x).
  { intros x j Hj. destruct j as [|[|j]]; [reflexivity|reflexivity|lia]. }
  destruct (classify_skips surrogate ex_labels ex_two_nn 3 2 1 1 (fun _ j => j) 0 1 ex_cl (fun _ _ _ => True))
    as (out & E & H); [exact ex_labels_one_hot|exact ex_two_nn_ok|lia| |].
  { intros ix nn k r Hk _ Hr. exfalso. destruct (Hr O Hk) as [_ Hf]. apply Hf, Hag. }
  exists out. split; auto. intros c Hc. apply (H O c); auto.
  intros j Hj. destruct j as [|[|j]]; cbn; lia.
Qed.

(** Two-class classification with a GP surrogate. *)
Lemma classify_two_gp ls g F kern k test train labels test_nn N M w q lo hi cl :
  exact_solver ls -> (gp_noise g = NullNoise \/ exists v, gp_noise g = HomoscedasticNoise v) ->
  pointwise_kernel F kern k -> dataset test M -> dataset train N -> ndim test = ndim train ->
  feature_count test = F -> feature_count train = F -> one_hot labels N 2 lo hi cl -> (0 < N)%nat ->
  index_matrix test_nn M (S w) N q -> (S w <> 2)%nat ->
  (forall x, (x < M)%nat -> nonsingular (S w) (nbr_matrix k (gp_noise g) train q x)) ->
  exists out, classify_any (fun ix nn => posterior_mean_from_indices ls g kern ix nn test train labels) labels test_nn = Ok out /\
    shape out = [M; 2%nat] /\
    forall x c, (x < M)%nat -> (c < 2)%nat ->
      ((forall j, (j < S w)%nat -> cl (q x j) = cl (q x O)) -> at_ out [x; c] = if (c =? cl (q x O))%nat then hi else lo) /\
      ((exists j, (j < S w)%nat /\ cl (q x j) <> cl (q x O)) ->
         kriging (S w) (nbr_matrix k (gp_noise g) train q x) (fun j => kcov k test train x (q x j))
                 (fun j => if (c =? cl (q x j))%nat then hi else lo) (at_ out [x; c])).
Proof.
  intros Hls Hg Hk Hd Hd' Hnd HF HF' Ho HN Hn Hw Hns.
  assert (Hl : shape labels = [N; 2%nat]) by apply Ho.
  destruct (classify_two (fun ix nn => posterior_mean_from_indices ls g kern ix nn test train labels) labels test_nn N M w q lo hi cl
    (fun x c v => kriging (S w) (nbr_matrix k (gp_noise g) train q x) (fun j => kcov k test train x (q x j))
                    (fun j => at_ labels [q x j; c]) v)) as (out & E & So & H); auto.
  { apply (gp_answers ls g F kern k test train labels test_nn N M (S w) q 2); auto. }
  exists out. split; auto. split; auto. intros x c Hx Hc. destruct (H x c Hx Hc) as [A B]. split; auto.
  intros He. destruct (B He) as (wv & H1 & H2). exists wv. split; auto. rewrite H2. unfold dot.
  apply rsum_ext. intros j Hj. destruct Ho as (_ & _ & Ho).
  destruct (Ho (q x j)) as [_ Ho']; [apply Hn; auto|]. rewrite Ho' by auto. reflexivity.
Qed.
