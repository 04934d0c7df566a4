(** Specification vocabulary for training a classifier: leave-one-out class scores and losses written from the data. *)
From Verif Require Import Base NdModel RSum LinAlgSpec GPSpec NoiseModel MuyGPSModel HyperModel NamedModel
  NamedSpec TensorSpec KernelModel KernelSpec FlowSpec LibSpec LossModel LossSpec ChassisModel ChassisSpec TrainModel TrainSpec
  WorkSpec.
Local Open Scope R_scope.

(** Leave-one-out scores of [b] training rows [c 0], ..., [c (b-1)] for each of [r] label columns: kriging means of the
    labels of their neighbours [q x 0], ..., [q x (n-1)]. *)
Definition loo_class_scores (k : (nat -> R) -> R) (m : noise_model) (train labels : nd R) (b n r : nat)
  (c : nat -> nat) (q : nat -> nat -> nat) (score : nat -> nat -> R) : Prop :=
  forall x j, (x < b)%nat -> (j < r)%nat ->
    kriging n (nbr_matrix k m train q x) (fun i => kcov k train train (c x) (q x i))
      (fun i => at_ labels [q x i; j]) (score x j).

(** The losses that apply to class scores.  Cross entropy: minus the log probability of the columns with positive label (for
    one-hot labels, of the true class), probabilities kept inside [eps, 1 - eps]. *)
Definition class_loss (eps : R) (l : loss) (b r : nat) (label score : nat -> nat -> R) : option R :=
  match l with
  | CrossEntropy => Some (rsum b (fun x => rsum r (fun j =>
      if Rltb 0 (label x j) then - ln (Rmin (Rmax (prob r (score x) j) eps) (1 - eps)) else 0)))
  | Mse => Some (rsum b (fun x => rsum r (fun j => (score x j - label x j) ^ 2)) / (INR b * INR r))
  | PseudoHuber => Some (rsum b (fun x => rsum r (fun j => huber_entry (3/2) (label x j - score x j))))
  | _ => None
  end.

(** [v] is minus the leave-one-out loss of the model [F] on the batch: what training should maximize. *)
Definition loo_class_value (gamma : R -> R) (kv : R -> R -> R) (eps : R) (s : store) (F : full) (l : loss)
  (train labels : nd R) (b n r : nat) (c : nat -> nat) (q : nat -> nat -> nat) (v : R) : Prop :=
  exists K score L, full_lib s F = Some K /\
    loo_class_scores (lk_cov gamma kv K (feature_count train) (reals s) []) (full_noise s F) train labels b n r c q score /\
    class_loss eps l b r (fun x j => at_ labels [c x; j]) score = Some L /\ v = - L.

(** The losses with a value on class scores (C79: lool and looph are not documented there). *)
Definition scores_classes (l : loss) : Prop := l = CrossEntropy \/ l = Mse \/ l = PseudoHuber.

(** Row [i] has neighbours of two classes, however ties between distances are broken. *)
Definition contested (train : nd R) (N n : nat) (cl : nat -> nat) (i : nat) : Prop :=
  (i < N)%nat /\ forall q, nearest_others train N i n q -> exists a a', (a < n)%nat /\ (a' < n)%nat /\ cl (q a) <> cl (q a').

(** A training batch: at most [bc] different rows, each with its [n] nearest other rows [q x 0], ..., of two classes. *)
Definition contested_batch (train : nd R) (N n : nat) (cl : nat -> nat) (bc : nat) (idx : list nat) (q : nat -> nat -> nat) : Prop :=
  NoDup idx /\ (List.length idx <= bc)%nat /\
  forall x, (x < List.length idx)%nat -> (nth x idx O < N)%nat /\ nearest_others train N (nth x idx O) n (q x) /\
    exists i j, (i < n)%nat /\ (j < n)%nat /\ cl (q x i) <> cl (q x j).

(** The number of classes that occur. *)
Definition class_number (N : nat) (cl : nat -> nat) : nat := List.length (nodup Nat.eq_dec (map cl (seq 0 N))).

(** What a two-class prediction is: the shared class of the nearest training rows, or the kriging mean of their labels. *)
Definition class_predictions (k : (nat -> R) -> R) (m : noise_model) (test train : nd R) (N M n : nat) (lo hi : R) (cl : nat -> nat)
  (out : nd R) : Prop :=
  shape out = [M; 2%nat] /\ exists q, forall x c, (x < M)%nat -> (c < 2)%nat ->
    nearest_rows test train N x n (q x) /\
    ((forall j, (j < n)%nat -> cl (q x j) = cl (q x O)) -> at_ out [x; c] = if (c =? cl (q x O))%nat then hi else lo) /\
    ((exists j, (j < n)%nat /\ cl (q x j) <> cl (q x O)) ->
       kriging n (nbr_matrix k m train q x) (fun j => kcov k test train x (q x j))
         (fun j => if (c =? cl (q x j))%nat then hi else lo) (at_ out [x; c])).
