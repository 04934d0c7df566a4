(** Property theorems C47 (classification shortcut), C48 (uncertainty quantification),
    C49 (drivers). *)
From Coq Require Import Lia Lra.
From Verif Require Import Base NdModel NdFacts RSum LinAlgModel LinAlgSpec LinAlgFacts
  GPModel NoiseModel MuyGPSModel GPSpec Gauss TensorModel TensorSpec
  FlowModel FlowSpec FlowLemmas ClassifyModel ClassifySpec ClassifyProofs ClassifyLemmas UqProofs
  DriverModel DriverProofs.
Local Open Scope R_scope.

(** * C47 *)
(** Every label encoding and class count: the call succeeds for a surrogate that answers the
    rows whose first label column is not constant (it is asked about no others); those rows
    get the surrogate's answer, the rest the label vector of their nearest neighbour. *)
Theorem C47_shortcut_partial : forall surrogate labels test_nn N C t w q G,
  shape labels = [N; S C] -> index_matrix test_nn t (S w) N q -> (0 < N)%nat ->
  answers surrogate test_nn t (S w) (S C) (fun x => ~ agree_first labels (S w) q x) G ->
  exists out, classify_any surrogate labels test_nn = Ok out /\ shape out = [t; S C] /\
    forall x c, (x < t)%nat -> (c < S C)%nat ->
      (agree_first labels (S w) q x -> at_ out [x; c] = at_ labels [q x O; c]) /\
      (~ agree_first labels (S w) q x -> G x c (at_ out [x; c])).
Proof. exact classify_value. Qed.
Print Assumptions C47_shortcut_partial.

(** Neighbours that share their label vector agree on its first column. *)
Theorem C47_agreement_is_detected : forall labels C w q x,
  agree labels (S C) w q x -> agree_first labels w q x.
Proof. exact agree_agree_first. Qed.
Print Assumptions C47_agreement_is_detected.

(** Two classes in any one-hot encoding: exactly the test points whose neighbours all share a
    class skip the model, and they get that class. *)
Theorem C47_two_classes : forall surrogate labels test_nn N t w q lo hi cl G,
  one_hot labels N 2 lo hi cl -> index_matrix test_nn t (S w) N q -> (0 < N)%nat ->
  answers surrogate test_nn t (S w) 2 (fun x => exists j, (j < S w)%nat /\ cl (q x j) <> cl (q x O)) G ->
  exists out, classify_any surrogate labels test_nn = Ok out /\ shape out = [t; 2%nat] /\
    forall x c, (x < t)%nat -> (c < 2)%nat ->
      ((forall j, (j < S w)%nat -> cl (q x j) = cl (q x O)) -> at_ out [x; c] = if (c =? cl (q x O))%nat then hi else lo) /\
      ((exists j, (j < S w)%nat /\ cl (q x j) <> cl (q x O)) -> G x c (at_ out [x; c])).
Proof. exact classify_two. Qed.
Print Assumptions C47_two_classes.

(** ... and with a GP surrogate the others get the kriging prediction of the label columns. *)
Theorem C47_two_classes_gp : forall ls g F kern k test train labels test_nn N M w q lo hi cl,
  exact_solver ls -> (gp_noise g = NullNoise \/ exists v, gp_noise g = HomoscedasticNoise v) ->
  pointwise_kernel F kern k -> dataset test M -> dataset train N -> ndim test = ndim train ->
  feature_count test = F -> feature_count train = F -> one_hot labels N 2 lo hi cl -> (0 < N)%nat ->
  index_matrix test_nn M (S w) N q -> (S w <> 2)%nat ->
  (forall x, (x < M)%nat -> nonsingular (S w) (nbr_matrix k (gp_noise g) train q x)) ->
  exists out, classify_any (fun ix nn => posterior_mean_from_indices ls g kern ix nn test train labels) labels test_nn = Ok out /\
    shape out = [M; 2%nat] /\
    forall x c, (x < M)%nat -> (c < 2)%nat ->
      ((forall j, (j < S w)%nat -> cl (q x j) = cl (q x O)) -> at_ out [x; c] = if (c =? cl (q x O))%nat then hi else lo) /\
      ((exists j, (j < S w)%nat /\ cl (q x j) <> cl (q x O)) ->
         kriging (S w) (nbr_matrix k (gp_noise g) train q x) (fun j => kcov k test train x (q x j))
                 (fun j => if (c =? cl (q x j))%nat then hi else lo) (at_ out [x; c])).
Proof. exact classify_two_gp. Qed.
Print Assumptions C47_two_classes_gp.

(** Two-class UQ prediction: the same shortcut, with zero variance. *)
Theorem C47_two_class_uq : forall surrogate labels test_nn N t w q G H,
  shape labels = [N; 2%nat] -> index_matrix test_nn t (S w) N q ->
  answers_uq surrogate test_nn t (S w) 2 (fun x => ~ agree_first labels (S w) q x) G H ->
  exists M V, classify_two_class_uq surrogate labels test_nn = Ok (M, V) /\ shape M = [t; 2%nat] /\ shape V = [t] /\
    forall x, (x < t)%nat ->
      (agree_first labels (S w) q x -> at_ V [x] = 0 /\ forall c, (c < 2)%nat -> at_ M [x; c] = at_ labels [q x O; c]) /\
      (~ agree_first labels (S w) q x -> H x (at_ V [x]) /\ forall c, (c < 2)%nat -> G x c (at_ M [x; c])).
Proof. exact uq_value. Qed.
Print Assumptions C47_two_class_uq.

(** With three or more classes the shortcut is unsound: as soon as no neighbour has class 0,
    the nearest neighbour's label is returned however much the neighbours disagree. *)
Theorem C47_many_classes_refuted : forall surrogate labels test_nn N C t w q lo hi cl G,
  one_hot labels N (S C) lo hi cl -> index_matrix test_nn t (S w) N q -> (0 < N)%nat ->
  answers surrogate test_nn t (S w) (S C) (fun x => ~ agree_first labels (S w) q x) G ->
  exists out, classify_any surrogate labels test_nn = Ok out /\
    forall x c, (x < t)%nat -> (c < S C)%nat -> (forall j, (j < S w)%nat -> cl (q x j) <> O) ->
      at_ out [x; c] = if (c =? cl (q x O))%nat then hi else lo.
Proof. exact classify_skips. Qed.
Print Assumptions C47_many_classes_refuted.

Theorem C47_three_classes_refuted : exists labels cl test_nn q,
  one_hot labels 3 3 0 1 cl /\ index_matrix test_nn 1 2 3 q /\ cl (q O O) <> cl (q O 1%nat) /\
  forall surrogate, exists out, classify_any surrogate labels test_nn = Ok out /\
    forall c, (c < 3)%nat -> at_ out [O; c] = if (c =? cl (q O O))%nat then 1 else 0.
Proof. exact classify_refuted. Qed.
Print Assumptions C47_three_classes_refuted.

(** Three training points of classes 0, 1, 0; two test points with three neighbours. *)
Definition ex47_cl (i : nat) : nat := if (i =? 1)%nat then 1%nat else O.
Definition ex47_labels : nd R := mkNd [3; 2]%nat (fun idx => match idx with
  | [i; c] => if (c =? ex47_cl i)%nat then 1 else -1 | _ => 0 end).
Definition ex47_q (x j : nat) : nat := if (x =? 0)%nat then j else (if (j =? 1)%nat then 2%nat else j).
Definition ex47_nn : nd Z := mkNd [2; 3]%nat (fun idx => match idx with [x; j] => Z.of_nat (ex47_q x j) | _ => 0%Z end).
Definition ex47_surrogate (ix nn : nd Z) : result (nd R) :=
  match shape ix with [k] => Ok (mkNd [k; 2%nat] (fun _ => 1 / 3)) | _ => Err ValueError end.
Example C47_sat : one_hot ex47_labels 3 2 (-1) 1 ex47_cl /\ index_matrix ex47_nn 2 3 3 ex47_q /\
  answers ex47_surrogate ex47_nn 2 3 2 (fun x => exists j, (j < 3)%nat /\ ex47_cl (ex47_q x j) <> ex47_cl (ex47_q x O))
    (fun _ _ v => v = 1 / 3) /\
  (exists j, (j < 3)%nat /\ ex47_cl (ex47_q 0 j) <> ex47_cl (ex47_q 0 O)) /\
  (forall j, (j < 3)%nat -> ex47_cl (ex47_q 1 j) = ex47_cl (ex47_q 1 O)).
Proof.
  split; [|split; [|split; [|split]]].
  - split; [lra|]. split; [reflexivity|]. intros i Hi. split; [|reflexivity]. unfold ex47_cl. destruct (i =? 1)%nat; lia.
  - split; [reflexivity|]. intros x j Hx Hj. split; [reflexivity|]. unfold ex47_q.
    destruct (x =? 0)%nat; [lia|]. destruct (j =? 1)%nat; lia.
  - intros ix nn k r Hk (Hs & _) _. unfold ex47_surrogate. rewrite Hs. eexists. split; [reflexivity|]. split; reflexivity.
  - exists 1%nat. cbn. lia.
  - intros j Hj. destruct j as [|[|[|j]]]; [reflexivity|reflexivity|reflexivity|lia].
Qed.

(** * C48 *)
(** A mask entry says that mid_value lies within cutoff * variance of the prediction. *)
Theorem C48_masks : forall predictions cutoffs variances mid t c,
  shape predictions = [t; S (S c)] -> (shape variances = [t] \/ shape variances = [t; 1%nat]) ->
  exists masks, make_masks predictions cutoffs variances mid = Ok masks /\ List.length masks = List.length cutoffs /\
    forall o cut, nth_error cutoffs o = Some cut -> exists row, nth_error masks o = Some row /\
      List.length row = t /\
      forall x, (x < t)%nat -> (nth x row false = true <->
        interval_contains (at_ predictions [x; 1%nat]) (cut * var_at variances x) mid).
Proof. exact make_masks_ok. Qed.
Print Assumptions C48_masks.

(** The cutoff is trained on a different interval: half-width cutoff * sqrt(variance) and
    centre value 0.  For every cutoff and every variance other than 0 and 1 some prediction is
    inside one interval and outside the other; so is one for every mid_value other than 0. *)
Theorem C48_same_interval_refuted : forall v cut, 0 < v -> v <> 1 -> 0 < cut ->
  exists p, in_train_interval p v cut <> in_mask p v cut 0.
Proof. exact intervals_scale_differ. Qed.
Print Assumptions C48_same_interval_refuted.

Theorem C48_same_centre_refuted : forall mid cut, mid <> 0 -> 0 < cut ->
  exists p, in_train_interval p 1 cut = true /\ in_mask p 1 cut mid = false.
Proof. exact intervals_mid_differ. Qed.
Print Assumptions C48_same_centre_refuted.

Theorem C48_training_interval : forall m v cut,
  in_train_interval m v cut = true <-> interval_contains m (cut * sqrt v) 0.
Proof. exact in_train_spec. Qed.
Print Assumptions C48_training_interval.

Theorem C48_same_interval_partial : forall p v cut, v = 0 \/ v = 1 ->
  in_train_interval p v cut = in_mask p v cut 0.
Proof. exact intervals_agree. Qed.
Print Assumptions C48_same_interval_partial.

(** The report: counts and accuracies as documented; 0 as the accuracy of no ambiguous samples,
    NaN as the accuracy of no unambiguous ones. *)
Theorem C48_report : forall predictions labels masks t c c',
  shape predictions = [t; S c] -> shape labels = [t; S c'] -> (forall m, In m masks -> List.length m = t) ->
  exists acc rows right, do_uq predictions labels masks = Ok (acc, rows) /\
    (forall x, (x < t)%nat -> (right x = true <-> exists p, is_argmax (S c) (fun i => at_ predictions [x; i]) p /\
                                                 is_argmax (S c') (fun i => at_ labels [x; i]) p)) /\
    acc = (if (t =? 0)%nat then NaN else Fin (INR (how_many t right) / INR t)) /\
    List.length rows = List.length masks /\
    forall o mask, nth_error masks o = Some mask -> exists row, nth_error rows o = Some row /\
      report_row t right (fun x => nth x mask false) row.
Proof. exact do_uq_ok. Qed.
Print Assumptions C48_report.

Theorem C48_report_bad_mask : forall predictions labels t c c' m,
  shape predictions = [t; S c] -> shape labels = [t; S c'] -> List.length m <> t ->
  do_uq predictions labels [m] = Err IndexError.
Proof. exact do_uq_bad_mask. Qed.
Print Assumptions C48_report_bad_mask.

(** Trained cutoffs: always on the grid; the weighted example objectives minimise
    a * (uncovered errors) + (covered correct ones) over the grid. *)
Theorem C48_cutoffs_on_grid : forall mean1 var correct objectives cuts,
  train_cutoffs mean1 var correct objectives = Ok cuts ->
  List.length cuts = List.length objectives /\
  forall c, In c cuts -> on_cutoff_grid c /\ 1 / 100 <= c <= 20.
Proof. exact train_cutoffs_grid. Qed.
Print Assumptions C48_cutoffs_on_grid.

Theorem C48_weighted_cutoff_optimal : forall mean var right t a hit, List.length mean = t -> List.length var = t ->
  (forall x cut, (x < t)%nat -> (hit cut x = true <-> interval_contains (nth x mean 0) (cut * sqrt (nth x var 0)) 0)) ->
  (0 < how_many t right)%nat -> (0 < how_many t (fun x => negb (right x)))%nat ->
  exists cut, train_cutoffs mean var (map right (seq 0 t)) [weighted_objective a] = Ok [cut] /\
    on_cutoff_grid cut /\
    forall cut', on_cutoff_grid cut' ->
      a * (1 - fraction t (fun x => negb (right x)) (hit cut)) + fraction t right (hit cut) <=
      a * (1 - fraction t (fun x => negb (right x)) (hit cut')) + fraction t right (hit cut').
Proof. exact weighted_optimal. Qed.
Print Assumptions C48_weighted_cutoff_optimal.

(** The last example objective picks the smallest grid cutoff that leaves the fewest batch rows on the wrong side
    (wrong rows whose interval misses the boundary, right rows whose interval meets it). *)
Theorem C48_counted_cutoff_optimal : forall mean var right t hit, List.length mean = t -> List.length var = t ->
  (forall x cut, (x < t)%nat -> (hit cut x = true <-> interval_contains (nth x mean 0) (cut * sqrt (nth x var 0)) 0)) ->
  (0 < how_many t right)%nat -> (0 < how_many t (fun x => negb (right x)))%nat ->
  let bad cut := (how_many t (fun x => negb (right x) && negb (hit cut x))%bool + how_many t (fun x => right x && hit cut x)%bool)%nat in
  exists cut, train_cutoffs mean var (map right (seq 0 t)) [counted_objective] = Ok [cut] /\
    on_cutoff_grid cut /\
    forall cut', on_cutoff_grid cut' -> (bad cut <= bad cut')%nat /\ (cut' < cut -> (bad cut < bad cut')%nat).
Proof. exact counted_optimal. Qed.
Print Assumptions C48_counted_cutoff_optimal.

(** With a perfect (or perfectly wrong) batch one error rate is NaN, and every example
    objective picks the smallest cutoff whatever the other rate. *)
Theorem C48_perfect_batch : forall mean var right t, List.length mean = t -> List.length var = t ->
  how_many t right = O \/ how_many t (fun x => negb (right x)) = O ->
  train_cutoffs mean var (map right (seq 0 t)) example_lambdas = Ok (repeat (1 / 100) 5).
Proof. exact degenerate_cutoffs. Qed.
Print Assumptions C48_perfect_batch.

Example C48_sat : (0 < 4)%R /\ (4 <> 1)%R /\ (1 / 2 <> 0)%R /\
  (0 < how_many 2 (fun x => x =? 0)%nat)%nat /\ (0 < how_many 2 (fun x => negb (x =? 0)%nat))%nat /\
  (exists hit, forall x cut, (x < 2)%nat ->
     (hit cut x = true <-> interval_contains (nth x [1; 2] 0) (cut * sqrt (nth x [1; 4] 0)) 0)).
Proof.
  split; [lra|]. split; [lra|]. split; [lra|]. split; [cbn; lia|]. split; [cbn; lia|].
  exists (fun cut x => in_train_interval (nth x [1; 2] 0) (nth x [1; 4] 0) cut).
  intros x cut _. apply in_train_spec.
Qed.

(** * C49 *)
Section C49.
Variables spec model : Type.
Variable make : spec -> result model.
Variable fixed : model -> result bool.
Variables lookup batch : result unit.
Variable opt : option nat -> model -> result model.
Variable scale : model -> result model.
Variable mscale : list model -> result (list model).
Notation dreg := (decide_and_make_regressor spec model make fixed lookup batch opt scale mscale).
Notation dcla := (decide_and_make_classifier spec model make fixed lookup batch opt mscale).

(** A dict gives a univariate model, a list (regression: or a tuple) a multivariate one with
    one submodel per response; anything else never returns. *)
Theorem C49_regressor_kind : forall sh k r, dreg sh k = Ok r ->
  match k with
  | KDict _ => exists m, r = Univariate m
  | KList ks | KTuple ks => exists ms n, r = Multivariate ms /\ sh = [n; List.length ks] /\
      ((forall l l', mscale l = Ok l' -> List.length l' = List.length l) -> List.length ms = List.length ks)
  | KOther => False
  end.
Proof. exact (regressor_kind spec model make fixed lookup batch opt scale mscale). Qed.

Theorem C49_classifier_kind : forall sh k r, dcla sh k = Ok r ->
  match k with
  | KDict _ => exists m, r = Univariate m
  | KList ks => exists ms n, r = Multivariate ms /\ sh = [n; List.length ks] /\ List.length ms = List.length ks
  | KTuple _ | KOther => False
  end.
Proof. exact (classifier_kind spec model make fixed lookup batch opt mscale). Qed.

(** A count other than one specification per response raises ValueError. *)
Theorem C49_count_mismatch : forall sh ks, (forall n, sh <> [n; List.length ks]) ->
  dreg sh (KList ks) = Err ValueError /\ dreg sh (KTuple ks) = Err ValueError /\ dcla sh (KList ks) = Err ValueError.
Proof. exact (mismatch spec model make fixed lookup batch opt scale mscale). Qed.

(** Fixed models come back exactly as constructed. *)
Theorem C49_fixed_univariate : forall sh d m, lookup = Ok tt -> make d = Ok m -> fixed m = Ok true ->
  dreg sh (KDict d) = Ok (Univariate m) /\ dcla sh (KDict d) = Ok (Univariate m).
Proof. exact (fixed_univariate spec model make fixed lookup batch opt scale mscale). Qed.

Theorem C49_fixed_multivariate : forall n ks ms, lookup = Ok tt -> sequence (map make ks) = Ok ms ->
  (forall m, In m ms -> fixed m = Ok true) ->
  dreg [n; List.length ks] (KList ks) = Ok (Multivariate ms) /\
  dreg [n; List.length ks] (KTuple ks) = Ok (Multivariate ms) /\
  dcla [n; List.length ks] (KList ks) = Ok (Multivariate ms).
Proof. exact (fixed_multivariate spec model make fixed lookup batch opt scale mscale). Qed.

(** In a mixed list the classifier driver returns fixed submodels unchanged and each other one
    optimized on its own response. *)
Theorem C49_mixed_classifier : forall n ks ms out j m,
  sequence (map make ks) = Ok ms -> nth_error ms j = Some m ->
  dcla [n; List.length ks] (KList ks) = Ok (Multivariate out) ->
  exists m', nth_error out j = Some m' /\
    ((fixed m = Ok true /\ m' = m) \/ (fixed m = Ok false /\ opt (Some j) m = Ok m')).
Proof. exact (mixture_classifier spec model make fixed lookup batch opt mscale). Qed.

(** An unfixed univariate model is optimized on the batch; the regression driver returns the model with its scale
    set afterwards, the classification driver the optimized model itself. *)
Theorem C49_unfixed_univariate : forall sh d m m', lookup = Ok tt -> make d = Ok m -> fixed m = Ok false -> batch = Ok tt ->
  opt None m = Ok m' ->
  dcla sh (KDict d) = Ok (Univariate m') /\ dreg sh (KDict d) = rmap Univariate (scale m').
Proof. exact (unfixed_univariate spec model make fixed lookup batch opt scale mscale). Qed.

(** With at least one unfixed submodel the regression driver does the same as the classification driver for each
    submodel and then sets all scales together. *)
Theorem C49_mixed_regressor : forall n ks ms out,
  sequence (map make ks) = Ok ms -> (exists m, In m ms /\ fixed m = Ok false) ->
  dreg [n; List.length ks] (KList ks) = Ok (Multivariate out) \/ dreg [n; List.length ks] (KTuple ks) = Ok (Multivariate out) ->
  exists ms', List.length ms' = List.length ms /\ mscale ms' = Ok out /\
    forall j m, nth_error ms j = Some m -> exists m', nth_error ms' j = Some m' /\
      ((fixed m = Ok true /\ m' = m) \/ (fixed m = Ok false /\ opt (Some j) m = Ok m')).
Proof. exact (mixture_regressor spec model make fixed lookup batch opt scale mscale). Qed.

(** The two drivers disagree on tuples: a tuple that the regression driver turns into a model
    makes the classification driver (documented to accept tuples) raise. *)
Theorem C49_tuple_refuted : forall n ks ms, lookup = Ok tt -> sequence (map make ks) = Ok ms ->
  (forall m, In m ms -> fixed m = Ok true) ->
  dreg [n; List.length ks] (KTuple ks) = Ok (Multivariate ms) /\
  dcla [n; List.length ks] (KTuple ks) = Err ValueError.
Proof. exact (tuple_refuted spec model make fixed lookup batch opt scale mscale). Qed.
End C49.
Print Assumptions C49_regressor_kind.
Print Assumptions C49_classifier_kind.
Print Assumptions C49_count_mismatch.
Print Assumptions C49_fixed_univariate.
Print Assumptions C49_fixed_multivariate.
Print Assumptions C49_mixed_classifier.
Print Assumptions C49_unfixed_univariate.
Print Assumptions C49_mixed_regressor.
Print Assumptions C49_tuple_refuted.

(** A model is its length scale; zero is fixed. *)
Example C49_sat :
  let make := fun k : nat => @Ok nat k in
  let fixed := fun m : nat => Ok (m =? 0)%nat in
  sequence (map make [0; 0]%nat) = Ok [0; 0]%nat /\ (forall m, In m [0; 0]%nat -> fixed m = Ok true) /\
  sequence (map make [0; 3]%nat) = Ok [0; 3]%nat /\
  decide_and_make_classifier nat nat make fixed (Ok tt) (Ok tt) (fun _ m => Ok (S m)) (fun l => Ok l) [5; 2]%nat
    (KList [0; 3]%nat) = Ok (Multivariate [0; 4]%nat) /\
  (exists m, In m [0; 3]%nat /\ fixed m = Ok false) /\
  decide_and_make_regressor nat nat make fixed (Ok tt) (Ok tt) (fun _ m => Ok (S m)) (fun m => Ok m) (fun l => Ok (map (Nat.mul 2) l)) [5; 2]%nat
    (KTuple [0; 3]%nat) = Ok (Multivariate [0; 8]%nat).
Proof.
  cbn. split; [reflexivity|]. split; [|split; [reflexivity|split; [reflexivity|split; [exists 3%nat; auto|reflexivity]]]]. intros m [<-|[<-|[]]]; reflexivity.
Qed.
