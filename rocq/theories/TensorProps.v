(** Property theorems C15, C16. *)
From Coq Require Import Lia Lra.
From Verif Require Import Base NdModel NdFacts RSum TensorModel TensorSpec TensorProofs TensorLemmas.
Local Open Scope R_scope.

(** * C15 *)
Theorem C15_crosswise : forall data nn_data ix nix n n' b k,
  dataset data n -> dataset nn_data n' -> ndim data = ndim nn_data ->
  feature_count data = feature_count nn_data ->
  shape ix = [b] -> shape nix = [b; k]%nat ->
  (forall x, (x < b)%nat -> ~ out_of_range n (at_ ix [x])) ->
  (forall x i, (x < b)%nat -> (i < k)%nat -> ~ out_of_range n' (at_ nix [x; i])) ->
  exists t, crosswise_tensor data nn_data ix nix = Ok t /\
    shape t = [b; k; feature_count data]%nat /\
    forall x i f r r', (x < b)%nat -> (i < k)%nat -> (f < feature_count data)%nat ->
      selects n (at_ ix [x]) r -> selects n' (at_ nix [x; i]) r' ->
      at_ t [x; i; f] = feature data r f - feature nn_data r' f.
Proof. exact crosswise_spec. Qed.
Print Assumptions C15_crosswise.

Theorem C15_pairwise : forall data nix n b k,
  dataset data n -> shape nix = [b; k]%nat ->
  (forall x i, (x < b)%nat -> (i < k)%nat -> ~ out_of_range n (at_ nix [x; i])) ->
  exists t, pairwise_tensor data nix = Ok t /\
    shape t = [b; k; k; feature_count data]%nat /\
    forall x i j f r r', (x < b)%nat -> (i < k)%nat -> (j < k)%nat -> (f < feature_count data)%nat ->
      selects n (at_ nix [x; i]) r -> selects n (at_ nix [x; j]) r' ->
      at_ t [x; i; j; f] = feature data r f - feature data r' f.
Proof. exact pairwise_spec. Qed.
Print Assumptions C15_pairwise.

(** [selects] leaves no choice: an index that is not out of range selects exactly one row. *)
Theorem C15_selects_unique : forall n i, ~ out_of_range n i ->
  exists r, selects n i r /\ forall r', selects n i r' -> r' = r.
Proof. exact selects_unique. Qed.
Print Assumptions C15_selects_unique.

Theorem C15_crosswise_index_error : forall data nn_data ix nix n n',
  dataset data n -> dataset nn_data n' ->
  (exists idx, inb (shape ix) idx /\ out_of_range n (at_ ix idx)) \/
  (exists idx, inb (shape nix) idx /\ out_of_range n' (at_ nix idx)) ->
  crosswise_tensor data nn_data ix nix = Err IndexError.
Proof. exact crosswise_index_error. Qed.
Print Assumptions C15_crosswise_index_error.

Theorem C15_pairwise_index_error : forall data nix n,
  dataset data n -> (exists idx, inb (shape nix) idx /\ out_of_range n (at_ nix idx)) ->
  pairwise_tensor data nix = Err IndexError.
Proof. exact pairwise_index_error. Qed.
Print Assumptions C15_pairwise_index_error.

(** make_heteroscedastic_tensor: entry [x, i] is the measurement noise of neighbour [i] of batch element [x]. *)
Theorem C15_heteroscedastic_tensor : forall noise nix n b k, shape noise = [n] -> shape nix = [b; k]%nat ->
  (forall x i, (x < b)%nat -> (i < k)%nat -> ~ out_of_range n (at_ nix [x; i])) ->
  exists t, make_heteroscedastic_tensor noise nix = Ok t /\ shape t = [b; k]%nat /\
    forall x i r, (x < b)%nat -> (i < k)%nat -> selects n (at_ nix [x; i]) r -> at_ t [x; i] = at_ noise [r].
Proof.
  intros noise nix n b k Hs Hx Hr. destruct (take_ok noise nix n [] Hs) as (t & E & S1 & V).
  { intros idx Hi. rewrite Hx in Hi. apply inb_inv2 in Hi as (x & i & -> & H1 & H2). auto. }
  exists t. split; [exact E|]. split; [rewrite S1, Hx; reflexivity|]. intros x i r H1 H2 Hsel.
  apply (V [x; i] [] r); auto. rewrite Hx. apply inb2; auto.
Qed.
Print Assumptions C15_heteroscedastic_tensor.

(** batch_features_tensor: row [x] is the feature vector of the point with index [x] of the batch. *)
Theorem C15_batch_features : forall data ix n b, dataset data n -> shape ix = [b] ->
  (forall x, (x < b)%nat -> ~ out_of_range n (at_ ix [x])) ->
  exists t, batch_features_tensor data ix = Ok t /\ dataset t b /\ ndim t = ndim data /\ feature_count t = feature_count data /\
    forall x f r, (x < b)%nat -> (f < feature_count data)%nat -> selects n (at_ ix [x]) r -> feature t x f = feature data r f.
Proof.
  intros data ix n b Hd Hx Hr.
  assert (HR : forall idx, inb (shape ix) idx -> ~ out_of_range n (at_ ix idx)).
  { intros idx Hi. rewrite Hx in Hi. apply inb_inv1 in Hi as (x & -> & H1). auto. }
  destruct Hd as [Hd|[F Hd]].
  - destruct (take_ok data ix n [] Hd HR) as (t & E & S1 & V). rewrite Hx in S1. cbn [app] in S1.
    exists t. split; [exact E|]. split; [left; exact S1|]. unfold ndim, feature_count, feature. rewrite S1, Hd.
    split; [reflexivity|]. split; [reflexivity|]. intros x f r H1 _ Hsel. apply (V [x] [] r); auto. rewrite Hx. apply inb1; auto.
  - destruct (take_ok data ix n [F] Hd HR) as (t & E & S1 & V). rewrite Hx in S1. cbn [app] in S1.
    exists t. split; [exact E|]. split; [right; exists F; exact S1|]. unfold ndim, feature_count, feature. rewrite S1, Hd.
    split; [reflexivity|]. split; [reflexivity|]. intros x f r H1 _ Hsel. apply (V [x] [f] r); auto. rewrite Hx. apply inb1; auto.
Qed.
Print Assumptions C15_batch_features.

Theorem C15_take_index_error : forall data ix n rest, shape data = n :: rest ->
  (exists idx, inb (shape ix) idx /\ out_of_range n (at_ ix idx)) ->
  make_heteroscedastic_tensor data ix = Err IndexError /\ batch_features_tensor data ix = Err IndexError.
Proof. intros data ix n rest Hs (idx & Hi & Ho). split; apply (take_err data ix n rest idx); auto. Qed.
Print Assumptions C15_take_index_error.

Example C15_sat : dataset ex_data 4 /\ feature_count ex_data = 2%nat /\ shape ex_nix = [2; 2]%nat /\
  (forall x i, (x < 2)%nat -> (i < 2)%nat -> ~ out_of_range 4 (at_ ex_nix [x; i])) /\
  selects 4 (at_ ex_nix [0; 1]%nat) 3 /\
  dataset ex_data1 4 /\ feature_count ex_data1 = 1%nat /\
  exists t, pairwise_tensor ex_data ex_nix = Ok t /\ at_ t [0; 0; 1; 1]%nat = -4 /\
  exists t', pairwise_tensor ex_data1 ex_nix = Ok t' /\ at_ t' [0; 0; 1; 0]%nat = -2.
Proof. exact ex_tensor. Qed.

(** * C16 *)
Theorem C16_pairwise_metric : forall data nix n b k,
  dataset data n -> shape nix = [b; k]%nat ->
  (forall x i, (x < b)%nat -> (i < k)%nat -> ~ out_of_range n (at_ nix [x; i])) ->
  exists t u, pairwise_distances L2 data nix = Ok t /\ pairwise_distances F2 data nix = Ok u /\
    shape t = [b; k; k]%nat /\ shape u = [b; k; k]%nat /\
    forall x i j l, (x < b)%nat -> (i < k)%nat -> (j < k)%nat -> (l < k)%nat ->
      0 <= at_ t [x; i; j] /\
      at_ t [x; i; j] = at_ t [x; j; i] /\
      at_ t [x; i; i] = 0 /\
      at_ t [x; i; l] <= at_ t [x; i; j] + at_ t [x; j; l] /\
      at_ u [x; i; j] = at_ t [x; i; j] ^ 2.
Proof. exact pairwise_metric. Qed.
Print Assumptions C16_pairwise_metric.

Theorem C16_crosswise_metric : forall data nn_data ix nix n n' b k,
  dataset data n -> dataset nn_data n' -> ndim data = ndim nn_data ->
  feature_count data = feature_count nn_data ->
  shape ix = [b] -> shape nix = [b; k]%nat ->
  (forall x, (x < b)%nat -> ~ out_of_range n (at_ ix [x])) ->
  (forall x i, (x < b)%nat -> (i < k)%nat -> ~ out_of_range n' (at_ nix [x; i])) ->
  exists t u, crosswise_distances L2 data nn_data ix nix = Ok t /\
    crosswise_distances F2 data nn_data ix nix = Ok u /\
    shape t = [b; k]%nat /\ shape u = [b; k]%nat /\
    forall x i r r', (x < b)%nat -> (i < k)%nat ->
      selects n (at_ ix [x]) r -> selects n' (at_ nix [x; i]) r' ->
      0 <= at_ t [x; i] /\ at_ u [x; i] = at_ t [x; i] ^ 2 /\
      (at_ t [x; i] = 0 <-> forall f, (f < feature_count data)%nat -> feature data r f = feature nn_data r' f).
Proof. exact crosswise_metric. Qed.
Print Assumptions C16_crosswise_metric.

(** Translating every point by the same vector changes no distance, for either metric. *)
Theorem C16_translation_invariant : forall m data data' nn_data nn_data' ix nix n n' b k c,
  dataset data n -> dataset nn_data n' -> ndim data = ndim nn_data ->
  feature_count data = feature_count nn_data ->
  shape data' = shape data -> shape nn_data' = shape nn_data ->
  (forall r f, (r < n)%nat -> feature data' r f = feature data r f + c f) ->
  (forall r f, (r < n')%nat -> feature nn_data' r f = feature nn_data r f + c f) ->
  shape ix = [b] -> shape nix = [b; k]%nat ->
  (forall x, (x < b)%nat -> ~ out_of_range n (at_ ix [x])) ->
  (forall x i, (x < b)%nat -> (i < k)%nat -> ~ out_of_range n' (at_ nix [x; i])) ->
  exists t t' p p', crosswise_distances m data nn_data ix nix = Ok t /\
    crosswise_distances m data' nn_data' ix nix = Ok t' /\ nd_eq t t' /\
    pairwise_distances m nn_data nix = Ok p /\ pairwise_distances m nn_data' nix = Ok p' /\ nd_eq p p'.
Proof. exact translation_invariant. Qed.
Print Assumptions C16_translation_invariant.

Example C16_sat : dataset ex_data 4 /\ shape ex_nix = [2; 2]%nat /\
  (exists c data', shape data' = shape ex_data /\ c 1%nat <> 0 /\
     forall r f, (r < 4)%nat -> feature data' r f = feature ex_data r f + c f) /\
  exists t, pairwise_distances L2 ex_data ex_nix = Ok t /\ at_ t [0; 0; 1]%nat <> 0.
Proof. exact ex_metric. Qed.
