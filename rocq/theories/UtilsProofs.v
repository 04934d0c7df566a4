(** Proofs about the shipped data helpers. *)
From Coq Require Import Lia Lra Permutation.
From Verif Require Import Base BaseFacts NdModel NdFacts RSum LinAlgModel LinAlgSpec LinAlgFacts NoiseModel NoiseProofs GPModel MuyGPSModel GPSpec ScaleSpec ScaleProofs
  NeighborsModel NeighborsSpec NeighborsProofs BatchProofs ClassifyModel ClassifySpec UqProofs ClassTrainModel DriverProofs MpiModel ChunkProofs UtilsModel UtilsSpec.
Local Open Scope R_scope.

Lemma take_rows_inv t rows t' : take_rows t rows = Ok t' -> rows_of t rows t'.
Proof.
  unfold take_rows, rows_of. destruct (shape t) as [|n [|m rest]] eqn:E; try discriminate.
  destruct (forallb _ _) eqn:F; [|discriminate]. intros H. assert (t' = mkNd (List.length rows :: m :: rest)
    (fun idx => match idx with a :: l => at_ t (nth a rows 0%nat :: l) | [] => 0 end)) as -> by congruence.
  exists n, (m :: rest). cbn [shape at_]. split; [reflexivity|]. split; [reflexivity|]. split.
  - rewrite forallb_forall in F. intros r Hr. apply Nat.ltb_lt, F, Hr.
  - reflexivity.
Qed.
Lemma take_rows_ok t rows n m rest : shape t = n :: m :: rest -> (forall r, In r rows -> (r < n)%nat) ->
  exists t', take_rows t rows = Ok t'.
Proof.
  intros E H. unfold take_rows. rewrite E. destruct (forallb _ _) eqn:F; [eauto|]. exfalso.
  assert (forallb (fun i => (i <? n)%nat) rows = true); [|congruence]. apply forallb_forall. intros r Hr. apply Nat.ltb_lt, H, Hr.
Qed.

Lemma subsample_safe draw data k data' : fair draw -> subsample draw data k = Ok data' ->
  exists rows, NoDup rows /\ List.length rows = k /\ rows_of (d_input data) rows (d_input data') /\ rows_of (d_output data) rows (d_output data').
Proof.
  intros HD. unfold subsample. destruct (shape (d_input data)) as [|n r] eqn:E; [discriminate|].
  unfold choice. rewrite seq_length. destruct (Nat.leb_spec k n) as [L|L]; cbn [bind]; [|discriminate].
  destruct (HD (seq 0 n) k) as (L1 & L2 & L3); [rewrite seq_length; lia|apply seq_NoDup|].
  destruct (take_rows (d_input data) _) as [x|] eqn:EX; cbn [bind]; [|discriminate].
  destruct (take_rows (d_output data) _) as [y|] eqn:EY; cbn [bind]; [|discriminate]. intros H.
  assert (data' = mkData x y) as -> by congruence. exists (draw (seq 0 n) k). cbn [d_input d_output].
  auto using take_rows_inv.
Qed.
Lemma subsample_ok draw data k n f fr c cr : fair draw -> shape (d_input data) = n :: f :: fr -> shape (d_output data) = n :: c :: cr ->
  (k <= n)%nat -> exists data', subsample draw data k = Ok data'.
Proof.
  intros HD E1 E2 L. unfold subsample. rewrite E1. unfold choice. rewrite seq_length. destruct (Nat.leb_spec k n); [|lia]. cbn [bind].
  destruct (HD (seq 0 n) k) as (L1 & L2 & L3); [rewrite seq_length; lia|apply seq_NoDup|].
  assert (B : forall r, In r (draw (seq 0 n) k) -> (r < n)%nat) by (intros r Hr; apply L3, in_seq in Hr; lia).
  destruct (take_rows_ok _ _ _ _ _ E1 B) as (x & ->). destruct (take_rows_ok _ _ _ _ _ E2 B) as (y & ->). cbn [bind]. eauto.
Qed.
Lemma subsample_too_many draw data k n r : shape (d_input data) = n :: r -> (n < k)%nat -> subsample draw data k = Err ValueError.
Proof.
  intros E L. unfold subsample. rewrite E. unfold choice. rewrite seq_length. destruct (Nat.leb_spec k n); [lia|]. reflexivity.
Qed.

(** ** Balanced *)
Lemma labels_cls out n c cls : shape out = [n; c] -> (0 < c)%nat -> classes_are out n c cls ->
  argmax_labels out = Ok (map (fun i => INR (cls i)) (seq 0 n)).
Proof.
  intros E Hc H. unfold argmax_labels. rewrite E. destruct c as [|c]; [lia|]. f_equal. apply map_ext_in.
  intros i Hi. apply in_seq in Hi. f_equal. apply (is_argmax_unique (S c) (fun j => at_ out [i; j])); [apply np_argmax_spec|]. apply H. lia.
Qed.

Lemma unique_count (cls : nat -> nat) n : List.length (unique (map (fun i => INR (cls i)) (seq 0 n))) = number_of_classes cls n.
Proof.
  unfold number_of_classes. rewrite <- (map_length INR (nodup Nat.eq_dec (map cls (seq 0 n)))).
  apply Permutation_length, NoDup_Permutation.
  - apply unique_nodup.
  - assert (G : forall l, NoDup l -> NoDup (map INR l)).
    { induction l as [|a l IH]; intros N; [constructor|]. inversion N; subst. cbn. constructor; auto.
      intros C. apply in_map_iff in C as (b & Eb & Hb). apply INR_eq in Eb. subst. contradiction. }
    apply G, NoDup_nodup.
  - intros x. rewrite unique_in. rewrite !in_map_iff. split.
    + intros (i & <- & Hi). exists (cls i). split; [reflexivity|]. apply nodup_In, in_map, Hi.
    + intros (k & <- & Hk). apply nodup_In, in_map_iff in Hk as (i & <- & Hi). eauto.
Qed.

Lemma class_count_in (cls : nat -> nat) n k rows : (forall i, In i rows -> (i < n)%nat) ->
  class_count (map (fun i => INR (cls i)) (seq 0 n)) (INR k) rows = in_class cls k rows.
Proof.
  intros H. unfold class_count, in_class. f_equal. apply filter_ext_in. intros i Hi.
  rewrite (nth_map (fun i => INR (cls i)) _ O) by (rewrite seq_length; auto). rewrite seq_nth by auto. cbn [Nat.add].
  unfold Reqb. destruct (Req_EM_T (INR (cls i)) (INR k)) as [E|E], (Nat.eqb_spec (cls i) k) as [E'|E']; auto.
  apply INR_eq in E. contradiction.
Qed.

Lemma balanced_inv draw data s data' n f fr c cls :
  (forall j, fair (draw j)) -> (Z.of_nat s < 2 ^ 53)%Z ->
  shape (d_input data) = n :: f :: fr -> shape (d_output data) = [n; c] -> (0 < n)%nat -> (0 < c)%nat ->
  classes_are (d_output data) n c cls ->
  exists data0, balanced_subsample draw data s = Ok data0 /\ (data0 = data' ->
  exists rows, NoDup rows /\ rows_of (d_input data) rows (d_input data') /\ rows_of (d_output data) rows (d_output data') /\
    (forall k, (exists i, (i < n)%nat /\ cls i = k) ->
       in_class cls k rows = Nat.min (in_class cls k (seq 0 n)) (s / number_of_classes cls n)) /\
    (List.length rows <= number_of_classes cls n * (s / number_of_classes cls n))%nat).
Proof.
  intros HD Hs E1 E2 Hn Hc HC. unfold balanced_subsample. rewrite (labels_cls _ _ _ _ E2 Hc HC). cbn [bind].
  set (labels := map (fun i => INR (cls i)) (seq 0 n)).
  assert (LL : List.length labels = n) by (unfold labels; rewrite map_length, seq_length; auto).
  assert (UC : List.length (unique labels) = number_of_classes cls n) by (apply unique_count).
  assert (UP : (0 < List.length (unique labels))%nat).
  { destruct (unique labels) as [|u l] eqn:EU; [|cbn; lia]. exfalso.
    assert (In (INR (cls 0%nat)) (unique labels)) as C; [|rewrite EU in C; destruct C].
    apply unique_in, in_map_iff. exists O. split; [reflexivity|]. apply in_seq. lia. }
  destruct (Nat.eqb_spec (List.length (unique labels)) 0) as [EZ|_]; [lia|].
  rewrite int_true_div_exact by (auto; lia). rewrite Nat2Z.id. rewrite UC, LL.
  set (m := number_of_classes cls n) in *. set (each := (s / m)%nat).
  set (pool := fun c => filter (fun i => Reqb (nth i labels 0) c) (seq 0 n)).
  set (num := fun c => Nat.min (List.length (pool c)) each).
  assert (PI : forall c i, In i (pool c) <-> (i < n)%nat /\ nth i labels 0 = c).
  { intros c' i. unfold pool. rewrite filter_In, in_seq, Reqb_eq. intuition lia. }
  assert (PN : forall c, NoDup (pool c)) by (intros; apply NoDup_filter, seq_NoDup).
  set (D := map (fun j => draw j (pool (nth j (unique labels) 0)) (num (nth j (unique labels) 0))) (seq 0 m)).
  assert (ES : sequence (map (fun i => choice (draw i) (nth i (map pool (unique labels)) [])
     (nth i (map (fun arr => Nat.min (List.length arr) each) (map pool (unique labels))) 0%nat)) (seq 0 m)) = Ok D).
  { apply sequence_of. unfold D. clear - PN UC. assert (G : forall l, (forall j, In j l -> (j < m)%nat) ->
     Forall2 (fun x y => x = Ok y) (map (fun i => choice (draw i) (nth i (map pool (unique labels)) [])
     (nth i (map (fun arr => Nat.min (List.length arr) each) (map pool (unique labels))) 0%nat)) l)
     (map (fun j => draw j (pool (nth j (unique labels) 0)) (num (nth j (unique labels) 0))) l)).
    { induction l as [|j l IH]; intros H; cbn [map]; constructor.
      - rewrite map_map. assert (j < List.length (unique labels))%nat by (rewrite UC; apply H; left; auto).
        rewrite (nth_map pool _ 0) by auto. rewrite (nth_map (fun x => Nat.min (List.length (pool x)) each) _ 0) by auto.
        unfold choice. fold (num (nth j (unique labels) 0)). destruct (Nat.leb_spec (num (nth j (unique labels) 0)) (List.length (pool (nth j (unique labels) 0)))) as [L|L]; auto.
        unfold num in L. lia.
      - apply IH. intros; apply H; right; auto. }
    apply G. intros j Hj. apply in_seq in Hj. lia. }
  rewrite ES. cbn [bind].
  assert (EC : List.concat D = flat_map (fun j => draw j (pool (nth j (unique labels) 0)) (num (nth j (unique labels) 0))) (seq 0 m)).
  { unfold D. rewrite flat_map_concat_map. reflexivity. }
  rewrite EC.
  destruct (flat_draws labels (unique labels) pool num draw (unique_nodup labels)) with (k := m) as (N & Iin & C).
  { intros c' i Hi. apply PI in Hi. tauto. }
  { intros j Hj. apply HD; [unfold num; lia|apply PN]. }
  { rewrite UC. lia. }
  cbv zeta in N, Iin, C.
  set (chosen := flat_map _ _) in *.
  assert (B : forall r, In r chosen -> (r < n)%nat).
  { intros r Hr. destruct (Iin r Hr) as (j & _ & Hp). apply PI in Hp. tauto. }
  destruct (take_rows_ok _ _ _ _ _ E1 B) as (x & EX). destruct (take_rows_ok _ _ _ _ _ E2 B) as (y & EY).
  rewrite EX, EY. cbn [bind]. eexists. split; [reflexivity|]. intros <-. cbn [d_input d_output].
  exists chosen. split; [auto|]. split; [apply take_rows_inv; auto|]. split; [apply take_rows_inv; auto|]. split.
  - intros k (i & Hi & Ek). assert (In (INR k) (unique labels)) as Hk.
    { apply unique_in, in_map_iff. exists i. rewrite Ek. split; [reflexivity|]. apply in_seq. lia. }
    destruct (In_nth _ _ 0 Hk) as (j & Hj & Ej). specialize (C j Hj). rewrite Ej in C.
    destruct (Nat.ltb_spec j m); [|rewrite UC in Hj; lia].
    rewrite <- (class_count_in cls n k chosen B). fold labels. rewrite C. unfold num. f_equal.
    unfold pool. rewrite <- (class_count_in cls n k (seq 0 n)) by (intros r Hr; apply in_seq in Hr; lia). reflexivity.
  - assert (G : forall k, (k <= m)%nat -> (List.length (flat_map (fun j => draw j (pool (nth j (unique labels) 0%R)) (num (nth j (unique labels) 0%R))) (seq 0 k)) <= k * each)%nat).
    { clear chosen EC B EX EY N Iin C. induction k as [|k IH]; intros Hk; [cbn; lia|]. rewrite seq_S, flat_map_app, app_length. cbn [flat_map Nat.add]. rewrite app_nil_r.
      specialize (IH ltac:(lia)). destruct (HD k (pool (nth k (unique labels) 0)) (num (nth k (unique labels) 0))) as (DL & _); [unfold num; lia|apply PN|].
      rewrite DL. assert (num (nth k (unique labels) 0%R) <= each)%nat by (unfold num; lia). lia. }
    apply G. lia.
Qed.

Lemma balanced_spec draw data s n f fr c cls :
  (forall j, fair (draw j)) -> (Z.of_nat s < 2 ^ 53)%Z ->
  shape (d_input data) = n :: f :: fr -> shape (d_output data) = [n; c] -> (0 < n)%nat -> (0 < c)%nat ->
  classes_are (d_output data) n c cls ->
  exists data' rows, balanced_subsample draw data s = Ok data' /\ NoDup rows /\
    rows_of (d_input data) rows (d_input data') /\ rows_of (d_output data) rows (d_output data') /\
    (forall k, (exists i, (i < n)%nat /\ cls i = k) ->
       in_class cls k rows = Nat.min (in_class cls k (seq 0 n)) (s / number_of_classes cls n)) /\
    (List.length rows <= number_of_classes cls n * (s / number_of_classes cls n))%nat.
Proof.
  intros. destruct (balanced_inv draw data s (match balanced_subsample draw data s with Ok d => d | _ => data end) n f fr c cls) as (d & E & H'); auto.
  rewrite E in H'. destruct (H' eq_refl) as (rows & R). exists d, rows. auto.
Qed.

Lemma number_of_classes_pos cls n : (0 < n)%nat -> (0 < number_of_classes cls n)%nat.
Proof.
  intros H. unfold number_of_classes. destruct (nodup Nat.eq_dec (map cls (seq 0 n))) as [|x l] eqn:E; [|cbn; lia].
  exfalso. assert (In (cls O) (nodup Nat.eq_dec (map cls (seq 0 n)))) as C; [|rewrite E in C; destruct C].
  apply nodup_In, in_map, in_seq. lia.
Qed.
Lemma balanced_bound s m : (0 < m)%nat -> (m * (s / m) <= s)%nat /\ ((s mod m <> 0)%nat -> (m * (s / m) < s)%nat).
Proof. intros H. pose proof (Nat.div_mod s m ltac:(lia)). split; lia. Qed.
Lemma balanced_empty draw data s c f : shape (d_output data) = [O; S c] -> shape (d_input data) = f ->
  balanced_subsample draw data s = Err ZeroDivisionError.
Proof. intros E _. unfold balanced_subsample, argmax_labels. rewrite E. reflexivity. Qed.

(** Number of rows = sum over the classes, when every class is large enough. *)
Lemma in_class_cons cls k r rows : in_class cls k (r :: rows) = ((if (cls r =? k)%nat then 1 else 0) + in_class cls k rows)%nat.
Proof. unfold in_class. cbn [filter]. destruct (cls r =? k)%nat; reflexivity. Qed.
Lemma sum_indicator x : forall ks, NoDup ks -> In x ks -> forall g : nat -> nat,
  list_sum (map (fun k => ((if (x =? k)%nat then 1 else 0) + g k)%nat) ks) = S (list_sum (map g ks)).
Proof.
  assert (Z : forall ks, ~ In x ks -> forall g : nat -> nat, list_sum (map (fun k => ((if (x =? k)%nat then 1 else 0) + g k)%nat) ks) = list_sum (map g ks)).
  { intros ks H g. f_equal. apply map_ext_in. intros k Hk. destruct (Nat.eqb_spec x k); [subst; contradiction|reflexivity]. }
  induction ks as [|k ks IH]; intros N H g; [destruct H|]. inversion N; subst.
  cbn [map list_sum fold_right]. destruct (Nat.eqb_spec x k) as [->|NE].
  - specialize (Z ks H2 g). unfold list_sum in Z. rewrite Z. lia.
  - destruct H as [H|H]; [congruence|]. specialize (IH H3 H g). unfold list_sum in IH. rewrite IH. lia.
Qed.
Lemma length_classes (cls : nat -> nat) (ks : list nat) : NoDup ks -> forall rows, (forall i, In i rows -> In (cls i) ks) ->
  List.length rows = list_sum (map (fun k => in_class cls k rows) ks).
Proof.
  intros N. induction rows as [|r rows IH]; intros H.
  - clear N H. induction ks; cbn; auto.
  - cbn [List.length]. rewrite IH by (intros; apply H; right; auto). rewrite <- (sum_indicator (cls r) ks N) by (apply H; left; auto).
    f_equal. apply map_ext. intros k. symmetry. apply in_class_cons.
Qed.
Lemma list_sum_const {A} (f : A -> nat) v l : (forall x, In x l -> f x = v) -> list_sum (map f l) = (List.length l * v)%nat.
Proof.
  induction l as [|a l IH]; intros H; [reflexivity|]. cbn. rewrite H by (left; auto). fold (list_sum (map f l)). rewrite IH by (intros; apply H; right; auto). reflexivity.
Qed.
Lemma balanced_full_count cls n rows v : (forall i, In i rows -> (i < n)%nat) ->
  (forall k, (exists i, (i < n)%nat /\ cls i = k) -> in_class cls k rows = v) -> List.length rows = (number_of_classes cls n * v)%nat.
Proof.
  intros H Hk. rewrite (length_classes cls (nodup Nat.eq_dec (map cls (seq 0 n))) (NoDup_nodup _ _) rows).
  - apply list_sum_const. intros k Hin. apply Hk. apply nodup_In, in_map_iff in Hin as (i & E & Hi). apply in_seq in Hi. exists i. split; [lia|auto].
  - intros i Hi. apply nodup_In, in_map, in_seq. specialize (H i Hi). lia.
Qed.

(** ** Row normalisation *)
Lemma normalize_ok X n f : shape X = [n; f] -> exists Y, normalize X = Ok Y /\ shape Y = [n; f] /\
  forall i j, (i < n)%nat -> (j < f)%nat -> at_ Y [i; j] = at_ X [i; j] * sqrt (INR f / sqnorm X f i).
Proof. intros E. unfold normalize. rewrite E. eexists. split; [reflexivity|]. split; reflexivity. Qed.

Lemma sqnorm_nonneg X f i : 0 <= sqnorm X f i.
Proof. unfold sqnorm. apply rsum_nonneg. intros. apply pow2_ge_0. Qed.
Lemma sqnorm_scaled X Y f i a : (forall j, (j < f)%nat -> at_ Y [i; j] = at_ X [i; j] * a) -> sqnorm Y f i = a ^ 2 * sqnorm X f i.
Proof.
  intros H. unfold sqnorm. rewrite <- rsum_scal. apply rsum_ext. intros j Hj. rewrite (H j Hj). ring.
Qed.
Lemma sqnorm_pos_f X f i : 0 < sqnorm X f i -> (0 < f)%nat.
Proof. destruct f; [|lia]. unfold sqnorm. cbn. lra. Qed.
Lemma normalize_norm X n f Y : shape X = [n; f] -> normalize X = Ok Y ->
  shape Y = [n; f] /\ forall i, (i < n)%nat -> 0 < sqnorm X f i ->
    sqnorm Y f i = INR f /\ exists a, 0 < a /\ forall j, (j < f)%nat -> at_ Y [i; j] = a * at_ X [i; j].
Proof.
  intros E EY. destruct (normalize_ok X n f E) as (Y' & E' & S & A). assert (Y' = Y) as -> by congruence. split; [auto|].
  intros i Hi HP. pose proof (sqnorm_pos_f _ _ _ HP) as Hf. apply lt_INR in Hf. change (INR 0) with 0 in Hf.
  assert (Q : 0 < INR f / sqnorm X f i) by (apply Rdiv_lt_0_compat; auto).
  split.
  - rewrite (sqnorm_scaled X Y f i (sqrt (INR f / sqnorm X f i))) by (intros; apply A; auto).
    rewrite pow2_sqrt by lra. field. lra.
  - exists (sqrt (INR f / sqnorm X f i)). split; [apply sqrt_lt_R0; auto|]. intros j Hj. rewrite A by auto. ring.
Qed.
Lemma normalize_twice X n f Y Z : shape X = [n; f] -> normalize X = Ok Y -> normalize Y = Ok Z ->
  forall i j, (i < n)%nat -> (j < f)%nat -> 0 < sqnorm X f i -> at_ Z [i; j] = at_ Y [i; j].
Proof.
  intros E EY EZ i j Hi Hj HP. destruct (normalize_norm X n f Y E EY) as (SY & H). destruct (H i Hi HP) as (HN & _).
  destruct (normalize_ok Y n f SY) as (Z' & E' & S' & A). assert (Z' = Z) as -> by congruence. rewrite A by auto. rewrite HN.
  pose proof (sqnorm_pos_f _ _ _ HP) as Hf. apply lt_INR in Hf. change (INR 0) with 0 in Hf.
  unfold Rdiv. rewrite Rinv_r by lra. rewrite sqrt_1. ring.
Qed.
Lemma normalize_scale X X' n f Y Y' (a : nat -> R) : shape X = [n; f] -> shape X' = [n; f] ->
  (forall i j, (i < n)%nat -> (j < f)%nat -> at_ X' [i; j] = a i * at_ X [i; j]) ->
  normalize X = Ok Y -> normalize X' = Ok Y' ->
  forall i j, (i < n)%nat -> (j < f)%nat -> 0 < sqnorm X f i -> 0 < a i -> at_ Y' [i; j] = at_ Y [i; j].
Proof.
  intros E E' HA EY EY' i j Hi Hj HP Ha.
  destruct (normalize_ok X n f E) as (Z & EZ & _ & A). assert (Z = Y) as -> by congruence.
  destruct (normalize_ok X' n f E') as (Z' & EZ' & _ & A'). assert (Z' = Y') as -> by congruence.
  rewrite A, A' by auto. rewrite (sqnorm_scaled X X' f i (a i)) by (intros; rewrite HA by auto; ring).
  rewrite HA by auto.
  pose proof (sqnorm_pos_f _ _ _ HP) as Hf. apply lt_INR in Hf. change (INR 0) with 0 in Hf.
  replace (INR f / (a i ^ 2 * sqnorm X f i)) with ((INR f / sqnorm X f i) / (a i ^ 2)) by (field; lra).
  rewrite sqrt_div_alt by (apply pow_lt; auto). rewrite sqrt_pow2 by lra. field. lra.
Qed.

(** ** One-hot data *)
Lemma make_dict_ok loc obs cat n c cls : shape obs = [n; c] -> (0 < c)%nat -> classes_are obs n c cls ->
  exists out, make_dict loc obs cat = Ok (mkData loc out, map (fun i => INR (cls i)) (seq 0 n)) /\ shape out = [n; c] /\
    (cat = false -> out = obs) /\
    (cat = true -> forall i, (i < n)%nat ->
       (forall j, (j < c)%nat -> at_ out [i; j] = (if (j =? cls i)%nat then 1 else 0) - 1 / INR c) /\
       rsum c (fun j => at_ out [i; j]) = 0) /\
    classes_are out n c cls.
Proof.
  intros E Hc HC. unfold make_dict. rewrite (labels_cls _ _ _ _ E Hc HC). cbn [bind]. rewrite E.
  set (labels := map (fun i => INR (cls i)) (seq 0 n)). eexists. split; [reflexivity|].
  split; [destruct cat; auto|]. split; [intros ->; auto|].
  assert (A : forall i j, (i < n)%nat -> (if Reqb (INR j) (nth i labels 0) then 1 else 0) - 1 / INR c = (if (j =? cls i)%nat then 1 else 0) - 1 / INR c).
  { intros i j Hi. unfold labels. rewrite (nth_map (fun i => INR (cls i)) _ O) by (rewrite seq_length; auto). rewrite seq_nth by auto. cbn [Nat.add].
    unfold Reqb. destruct (Req_EM_T (INR j) (INR (cls i))) as [Q|Q], (Nat.eqb_spec j (cls i)) as [Q'|Q']; auto.
    - apply INR_eq in Q. contradiction.
    - subst. contradiction. }
  split.
  - intros -> i Hi. cbn [at_]. split; [intros; apply A; auto|].
    rewrite (rsum_ext c _ (fun j => delta j (cls i) * 1 + (- (1 / INR c)) * 1)).
    + rewrite rsum_plus, rsum_delta by (apply HC; auto). rewrite rsum_scal, rsum_const.
      apply lt_INR in Hc. change (INR 0) with 0 in Hc. field. lra.
    + intros j Hj. rewrite A by auto. unfold delta. destruct (j =? cls i)%nat; lra.
  - destruct cat; [|exact HC]. intros i Hi. destruct (HC i Hi) as (L & _ & _). split; [auto|]. cbn [at_]. split.
    + intros j Hj. rewrite !A by auto. rewrite Nat.eqb_refl. destruct (j =? cls i)%nat; lra.
    + intros j Hj. rewrite !A by auto. rewrite Nat.eqb_refl. destruct (Nat.eqb_spec j (cls i)); [lia|lra].
Qed.
Lemma make_dict_no_columns loc obs cat n : shape obs = [n; O] -> make_dict loc obs cat = Err ValueError.
Proof. intros E. unfold make_dict, argmax_labels. rewrite E. reflexivity. Qed.
