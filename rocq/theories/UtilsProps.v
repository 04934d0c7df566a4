(** C111: the data helpers shipped for the tests and tutorials (_test/utils.py). *)
From Coq Require Import Lia Lra.
From Verif Require Import Base BaseFacts NdModel NdFacts RSum LinAlgModel LinAlgSpec NoiseModel GPModel MuyGPSModel GPSpec ScaleSpec
  NeighborsModel NeighborsSpec ClassifySpec ClassTrainModel UtilsModel UtilsSpec UtilsProofs UtilsProofs2.
Local Open Scope R_scope.

(** _subsample: the returned rows are distinct rows of the data, inputs and outputs taken from the same rows. *)
Theorem C111_subsample_aligned : forall draw data k data', fair draw -> subsample draw data k = Ok data' ->
  exists rows, NoDup rows /\ List.length rows = k /\ rows_of (d_input data) rows (d_input data') /\ rows_of (d_output data) rows (d_output data').
Proof. exact subsample_safe. Qed.
Print Assumptions C111_subsample_aligned.

(** It works exactly for sample counts up to the number of rows. *)
Theorem C111_subsample_works : forall draw data k n f fr c cr, fair draw ->
  shape (d_input data) = n :: f :: fr -> shape (d_output data) = n :: c :: cr ->
  ((k <= n)%nat -> exists data', subsample draw data k = Ok data') /\
  ((n < k)%nat -> subsample draw data k = Err ValueError).
Proof. intros. split; intros; [eapply subsample_ok|eapply subsample_too_many]; eauto. Qed.
Print Assumptions C111_subsample_works.

(** _balanced_subsample: distinct aligned rows; every class that occurs contributes an equal share of the sample count (rounded down), or all its
    rows if it has fewer. *)
Theorem C111_balanced : forall draw data s n f fr c cls,
  (forall j, fair (draw j)) -> (Z.of_nat s < 2 ^ 53)%Z ->
  shape (d_input data) = n :: f :: fr -> shape (d_output data) = [n; c] -> (0 < n)%nat -> (0 < c)%nat ->
  classes_are (d_output data) n c cls ->
  let m := number_of_classes cls n in
  exists data' rows, balanced_subsample draw data s = Ok data' /\ NoDup rows /\
    rows_of (d_input data) rows (d_input data') /\ rows_of (d_output data) rows (d_output data') /\
    (forall k, (exists i, (i < n)%nat /\ cls i = k) -> in_class cls k rows = Nat.min (in_class cls k (seq 0 n)) (s / m)) /\
    (List.length rows <= s)%nat /\
    ((forall k, (exists i, (i < n)%nat /\ cls i = k) -> (s / m <= in_class cls k (seq 0 n))%nat) -> List.length rows = (m * (s / m))%nat).
Proof.
  intros draw data s n f fr c cls HD Hs E1 E2 Hn Hc HC m.
  destruct (balanced_spec draw data s n f fr c cls HD Hs E1 E2 Hn Hc HC) as (data' & rows & H1 & H2 & H3 & H4 & H5 & H6). fold m in H5, H6.
  exists data', rows. do 5 (split; [assumption|]). pose proof (number_of_classes_pos cls n Hn) as Hm. fold m in Hm.
  destruct (balanced_bound s m Hm) as (B & _). split; [lia|]. intros Hall.
  apply (balanced_full_count cls n).
  - destruct H3 as (n' & r & En & _ & Hr & _). rewrite E1 in En. injection En as <- _. exact Hr.
  - intros k Hk. rewrite (H5 k Hk). specialize (Hall k Hk). lia.
Qed.
Print Assumptions C111_balanced.

(** Finding: fewer rows than asked for whenever the number of classes does not divide the sample count. *)
Theorem C111_balanced_short_refuted : forall draw data s n f fr c cls data',
  (forall j, fair (draw j)) -> (Z.of_nat s < 2 ^ 53)%Z ->
  shape (d_input data) = n :: f :: fr -> shape (d_output data) = [n; c] -> (0 < n)%nat -> (0 < c)%nat ->
  classes_are (d_output data) n c cls -> (s mod number_of_classes cls n <> 0)%nat ->
  balanced_subsample draw data s = Ok data' -> exists k r, shape (d_output data') = k :: r /\ (k < s)%nat.
Proof.
  intros draw data s n f fr c cls data' HD Hs E1 E2 Hn Hc HC Hm E.
  destruct (balanced_spec draw data s n f fr c cls HD Hs E1 E2 Hn Hc HC) as (d & rows & H1 & _ & _ & H4 & _ & H6).
  assert (d = data') as -> by congruence. destruct H4 as (n' & r & _ & S & _). exists (List.length rows), r. split; [exact S|].
  pose proof (number_of_classes_pos cls n Hn) as Hp. destruct (balanced_bound s _ Hp) as (_ & B). specialize (B Hm). lia.
Qed.
Print Assumptions C111_balanced_short_refuted.

(** No rows at all: ZeroDivisionError. *)
Theorem C111_balanced_empty : forall draw data s c, shape (d_output data) = [O; S c] -> balanced_subsample draw data s = Err ZeroDivisionError.
Proof. intros. eapply balanced_empty; eauto. Qed.
Print Assumptions C111_balanced_empty.

(** _normalize: every nonzero row keeps its direction and gets squared length feature_count; doing it twice changes nothing more; the result does
    not depend on the lengths of the rows. *)
Theorem C111_normalize : forall X n f Y, shape X = [n; f] -> normalize X = Ok Y ->
  shape Y = [n; f] /\ forall i, (i < n)%nat -> 0 < sqnorm X f i ->
    sqnorm Y f i = INR f /\ exists a, 0 < a /\ forall j, (j < f)%nat -> at_ Y [i; j] = a * at_ X [i; j].
Proof. exact normalize_norm. Qed.
Print Assumptions C111_normalize.
Theorem C111_normalize_idempotent : forall X n f Y Z, shape X = [n; f] -> normalize X = Ok Y -> normalize Y = Ok Z ->
  forall i j, (i < n)%nat -> (j < f)%nat -> 0 < sqnorm X f i -> at_ Z [i; j] = at_ Y [i; j].
Proof. exact normalize_twice. Qed.
Print Assumptions C111_normalize_idempotent.
Theorem C111_normalize_length : forall X X' n f Y Y' (a : nat -> R), shape X = [n; f] -> shape X' = [n; f] ->
  (forall i j, (i < n)%nat -> (j < f)%nat -> at_ X' [i; j] = a i * at_ X [i; j]) ->
  normalize X = Ok Y -> normalize X' = Ok Y' ->
  forall i j, (i < n)%nat -> (j < f)%nat -> 0 < sqnorm X f i -> 0 < a i -> at_ Y' [i; j] = at_ Y [i; j].
Proof. exact normalize_scale. Qed.
Print Assumptions C111_normalize_length.
(** Finding: documented as row norms of 1, which holds for a single feature only. *)
Theorem C111_unit_norm_refuted : forall X n f Y, shape X = [n; f] -> (2 <= f)%nat -> normalize X = Ok Y ->
  forall i, (i < n)%nat -> 0 < sqnorm X f i -> sqnorm Y f i <> 1.
Proof.
  intros X n f Y E Hf EY i Hi HP. destruct (normalize_norm X n f Y E EY) as (_ & H). destruct (H i Hi HP) as (-> & _).
  apply le_INR in Hf. change (INR 2) with (1 + 1) in Hf. lra.
Qed.
Print Assumptions C111_unit_norm_refuted.

(** _make_gaussian_dict, given the random matrices: labels are the positions of the largest observations; the categorical outputs are
    one-hot rows shifted to sum to zero, with the same classes. *)
Theorem C111_labels : forall loc obs cat n c cls, shape obs = [n; c] -> (0 < c)%nat -> classes_are obs n c cls ->
  exists out, make_dict loc obs cat = Ok (mkData loc out, map (fun i => INR (cls i)) (seq 0 n)) /\ shape out = [n; c] /\
    (cat = false -> out = obs) /\
    (cat = true -> forall i, (i < n)%nat ->
       (forall j, (j < c)%nat -> at_ out [i; j] = (if (j =? cls i)%nat then 1 else 0) - 1 / INR c) /\
       rsum c (fun j => at_ out [i; j]) = 0) /\
    classes_are out n c cls.
Proof. exact make_dict_ok. Qed.
Print Assumptions C111_labels.
Theorem C111_no_responses : forall loc obs cat n, shape obs = [n; O] -> make_dict loc obs cat = Err ValueError.
Proof. exact make_dict_no_columns. Qed.
Print Assumptions C111_no_responses.

(** _get_scale_series: entry x is the analytic scale of neighbourhood x alone; a singular matrix raises LinAlgError. *)
Theorem C111_scale_series : forall ls, exact_solver ls -> forall Kin col v b n,
  shape Kin = [b; n; n] -> shape col = [b; n; 1%nat] -> (0 < n)%nat ->
  ((forall x, (x < b)%nat -> nonsingular n (noisy (HomoscedasticNoise v) Kin x)) ->
   exists l, get_scale_series ls Kin col v = Ok l /\ List.length l = b /\
     forall x, (x < b)%nat -> ml_scale 1 n (fun _ => noisy (HomoscedasticNoise v) Kin x) (fun _ => tgt col x) (nth x l 0)) /\
  (forall x, (x < b)%nat -> ~ nonsingular n (noisy (HomoscedasticNoise v) Kin x) -> get_scale_series ls Kin col v = Err LinAlgError).
Proof.
  intros ls Hls Kin col v b n HK HC Hn. split.
  - apply series_ok; auto.
  - intros x Hx Hs. apply (series_singular ls Hls Kin col v b n x); auto.
Qed.
Print Assumptions C111_scale_series.

(** With responses for more neighbourhoods than kernel matrices there is no result. *)
Theorem C111_scale_series_mismatch : forall ls Kin col v b bk n o n1 n2,
  shape Kin = [bk; n1; n2] -> shape col = [b; n; o] -> (bk < b)%nat -> exists e, get_scale_series ls Kin col v = Err e.
Proof.
  intros ls Kin col v b bk n o n1 n2 HK HC LT. unfold get_scale_series. rewrite HC, HK.
  destruct (sequence _) as [l|e] eqn:S; cbn [bind]; [exfalso|eauto].
  apply DriverProofs.sequence_ok in S. assert (H : forall (f : nat -> result R) s l', Forall2 (fun x y => x = Ok y) (map f s) l' -> forall j, In j s -> exists y, f j = Ok y).
  { intros f s. induction s as [|a s IH]; intros l' F j Hj; [destruct Hj|]. cbn [map] in F. inversion F; subst. destruct Hj as [->|Hj]; [eauto|eapply IH; eauto]. }
  destruct (H _ _ _ S bk) as [y E]; [apply in_seq; lia|]. cbn beta in E. rewrite Nat.ltb_irrefl, Bool.orb_true_r in E. discriminate.
Qed.
Print Assumptions C111_scale_series_mismatch.

(** What the tests rely on: the library's analytic scale is the mean of the series. *)
Theorem C111_library_scale_is_mean : forall ls, exact_solver ls -> forall g it kw Kin T col v b n s l,
  (it <= 1)%nat -> (0 < b)%nat -> (0 < n)%nat -> gp_noise g = HomoscedasticNoise v ->
  shape Kin = [b; n; n] -> univariate_shape T b n -> shape col = [b; n; 1%nat] ->
  (forall x i, (x < b)%nat -> (i < n)%nat -> at_ col [x; i; 0%nat] = tgt T x i) ->
  analytic_scale_opt ls g it Kin T kw = Ok s -> get_scale_series ls Kin col v = Ok l ->
  s = rsum b (fun x => nth x l 0) / INR b.
Proof. exact series_mean. Qed.
Print Assumptions C111_library_scale_is_mean.

(** The heteroscedastic test nugget acts as constant noise. *)
Theorem C111_test_nugget : forall Kin b n m, shape Kin = [b; n; n] -> (0 < b)%nat ->
  exists K K', perturb (HeteroscedasticNoise (make_heteroscedastic_test_nugget b n m)) Kin None = Ok K /\
    perturb (HomoscedasticNoise m) Kin None = Ok K' /\ nd_eq K K'.
Proof. exact nugget_constant. Qed.
Print Assumptions C111_test_nugget.

(** _sq_rel_err bounds the relative error and does not depend on units. *)
Theorem C111_relative_error : forall t e, t <> 0 ->
  (forall r, 0 <= r -> (sq_rel_err t e <= r ^ 2 <-> Rabs (t - e) <= r * Rabs t)) /\
  (forall a, a <> 0 -> sq_rel_err (a * t) (a * e) = sq_rel_err t e).
Proof. intros t e Ht. split; intros; [apply sq_rel_err_le|apply sq_rel_err_unit]; auto. Qed.
Print Assumptions C111_relative_error.

(** Satisfiability: three rows in two classes; a fair generator; a nonzero row. *)
Lemma firstn_fair : fair (fun pop k => firstn k pop).
Proof.
  intros pop k Hk N. split; [rewrite firstn_length; lia|]. split.
  - rewrite <- (firstn_skipn k pop) in N. clear Hk. induction (firstn k pop) as [|a l IH]; [constructor|]. cbn in N. inversion N; subst.
    constructor; auto. intros C. apply H1, in_or_app. auto.
  - intros x Hx. rewrite <- (firstn_skipn k pop). apply in_or_app. auto.
Qed.
Definition ex_out : nd R := mkNd [3; 2]%nat (fun idx => match idx with [i; j] => if (i =? j)%nat then 1 else 0 | _ => 0 end).
Definition ex_cls (i : nat) : nat := if (i =? 1)%nat then 1%nat else 0%nat.
Example C111_sat : (forall j : nat, fair ((fun _ pop k => firstn k pop) j)) /\ classes_are ex_out 3 2 ex_cls /\
  number_of_classes ex_cls 3 = 2%nat /\ (3 mod number_of_classes ex_cls 3 <> 0)%nat /\ 0 < sqnorm ex_out 2 0.
Proof.
  split; [intros; apply firstn_fair|]. split.
  - intros i Hi. destruct i as [|[|[|i]]]; [| | |lia]; (split; [cbn; lia|split; intros j Hj; [destruct j as [|[|j]]; [| |lia]; cbn; lra|
      cbn in Hj; try lia; assert (j = 0)%nat as -> by lia; cbn; lra]]).
  - split; [reflexivity|]. split; [vm_compute; discriminate|]. cbn. lra.
Qed.
