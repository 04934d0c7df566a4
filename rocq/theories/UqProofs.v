(** Proofs about uncertainty masks and the UQ report. *)
From Coq Require Import Lia Lra.
From Verif Require Import Base BaseFacts NdModel NdFacts LinAlgModel LinAlgFacts TensorModel TensorSpec TensorProofs
  ClassifyModel ClassifySpec.
Local Open Scope R_scope.

Lemma Rltb_true a b : Rltb a b = true <-> a < b.
Proof. unfold Rltb. destruct (Rlt_dec a b); split; auto; try discriminate; intros; contradiction. Qed.

Lemma in_mask_spec p v cut mid : in_mask p v cut mid = true <-> interval_contains p (cut * v) mid.
Proof.
  unfold in_mask, interval_contains. rewrite andb_true_iff, !Rltb_true. split.
  - intros [A B]. apply Rabs_def1; lra.
  - intros H. apply Rabs_def2 in H. lra.
Qed.
Lemma in_train_spec m v cut : in_train_interval m v cut = true <-> interval_contains m (cut * sqrt v) 0.
Proof. apply (in_mask_spec m (sqrt v) cut 0). Qed.

Lemma reshape_vec (v : nd R) t : shape v = [t] \/ shape v = [t; 1%nat] ->
  exists v', reshape v [t] = Ok v' /\ forall x, (x < t)%nat -> at_ v' [x] = var_at v x.
Proof.
  intros Hs. unfold reshape, var_at. destruct Hs as [Hs|Hs]; rewrite Hs.
  - rewrite Nat.eqb_refl. eexists. split; [reflexivity|]. intros x Hx. cbn [at_]. f_equal.
    cbn. rewrite Nat.mul_1_r, Nat.add_0_r, Nat.div_1_r. reflexivity.
  - rewrite nprod1, nprod2, Nat.mul_1_r, Nat.eqb_refl. eexists. split; [reflexivity|]. intros x Hx. cbn [at_]. f_equal.
    cbn. rewrite Nat.mul_1_r, Nat.add_0_r, !Nat.div_1_r. reflexivity.
Qed.

Lemma nth_map_seq {A} (f : nat -> A) t x d : (x < t)%nat -> nth x (map f (seq 0 t)) d = f x.
Proof.
  intros H. rewrite (nth_indep _ d (f O)) by (rewrite map_length, seq_length; auto).
  rewrite map_nth, seq_nth by auto. reflexivity.
Qed.

Lemma make_masks_ok predictions cutoffs variances mid t c :
  shape predictions = [t; S (S c)] -> (shape variances = [t] \/ shape variances = [t; 1%nat]) ->
  exists masks, make_masks predictions cutoffs variances mid = Ok masks /\ List.length masks = List.length cutoffs /\
    forall o cut, nth_error cutoffs o = Some cut -> exists row, nth_error masks o = Some row /\
      List.length row = t /\
      forall x, (x < t)%nat -> (nth x row false = true <->
        interval_contains (at_ predictions [x; 1%nat]) (cut * var_at variances x) mid).
Proof.
  intros Hp Hv. destruct (reshape_vec variances t Hv) as (v & Ev & Hval).
  unfold make_masks. rewrite Hp, Ev; cbn [bind]. destruct cutoffs as [|c0 cs].
  { exists []. split; [reflexivity|]. split; [reflexivity|]. intros [|o] cut H; discriminate. }
  cbn [Nat.ltb Nat.leb]. eexists. split; [reflexivity|]. split; [rewrite map_length; reflexivity|].
  intros o cut Ho. eexists. split; [rewrite nth_error_map, Ho; reflexivity|].
  split; [rewrite map_length, seq_length; reflexivity|]. intros x Hx.
  rewrite nth_map_seq by auto. rewrite in_mask_spec, Hval by auto. reflexivity.
Qed.

(** Training and application intervals disagree. *)
Lemma intervals_scale_differ v cut : 0 < v -> v <> 1 -> 0 < cut ->
  exists p, in_train_interval p v cut <> in_mask p v cut 0.
Proof.
  intros Hv H1 Hc. set (s := sqrt v). assert (Hs : 0 < s) by (apply sqrt_lt_R0; auto).
  assert (E : s * s = v) by (apply sqrt_sqrt; lra).
  assert (Hne : v <> s). { intros E'. apply H1. rewrite <- E in E' at 1. assert (s = 1) by (apply Rmult_eq_reg_l with s; lra). nra. }
  exists (cut * ((v + s) / 2)). intros Eq.
  assert (Hpos : 0 < cut * ((v + s) / 2)) by (apply Rmult_lt_0_compat; lra).
  assert (A : in_train_interval (cut * ((v + s) / 2)) v cut = true <-> cut * ((v + s) / 2) < cut * s).
  { rewrite in_train_spec. unfold interval_contains. fold s. rewrite Rminus_0_r, Rabs_right by lra. reflexivity. }
  assert (B : in_mask (cut * ((v + s) / 2)) v cut 0 = true <-> cut * ((v + s) / 2) < cut * v).
  { rewrite in_mask_spec. unfold interval_contains. rewrite Rminus_0_r, Rabs_right by lra. reflexivity. }
  destruct (Rlt_le_dec v s).
  - assert (in_train_interval (cut * ((v + s) / 2)) v cut = true) as T by (apply A; apply Rmult_lt_compat_l; lra).
    rewrite Eq in T. apply B in T. apply Rmult_lt_reg_l in T; lra.
  - assert (in_mask (cut * ((v + s) / 2)) v cut 0 = true) as T by (apply B; apply Rmult_lt_compat_l; lra).
    rewrite <- Eq in T. apply A in T. apply Rmult_lt_reg_l in T; lra.
Qed.

Lemma intervals_mid_differ mid cut : mid <> 0 -> 0 < cut ->
  exists p, in_train_interval p 1 cut = true /\ in_mask p 1 cut mid = false.
Proof.
  intros Hm Hc. destruct (Rtotal_order mid 0) as [H|[H|H]]; [|contradiction|].
  - exists (cut - Rmin (- mid) cut / 2).
    assert (0 < Rmin (- mid) cut) by (apply Rmin_glb_lt; lra).
    pose proof (Rmin_l (- mid) cut). pose proof (Rmin_r (- mid) cut). split.
    + apply in_train_spec. unfold interval_contains. rewrite sqrt_1. apply Rabs_def1; lra.
    + destruct (in_mask _ _ _ _) eqn:E; auto. exfalso. apply in_mask_spec in E.
      unfold interval_contains in E. apply Rabs_def2 in E. lra.
  - exists (- cut + Rmin mid cut / 2).
    assert (0 < Rmin mid cut) by (apply Rmin_glb_lt; lra).
    pose proof (Rmin_l mid cut). pose proof (Rmin_r mid cut). split.
    + apply in_train_spec. unfold interval_contains. rewrite sqrt_1. apply Rabs_def1; lra.
    + destruct (in_mask _ _ _ _) eqn:E; auto. exfalso. apply in_mask_spec in E.
      unfold interval_contains in E. apply Rabs_def2 in E. lra.
Qed.

Lemma intervals_agree p v cut : v = 0 \/ v = 1 -> in_train_interval p v cut = in_mask p v cut 0.
Proof.
  intros [-> | ->]; unfold in_train_interval, in_mask; [rewrite sqrt_0|rewrite sqrt_1]; reflexivity.
Qed.

(** Counting. *)
Lemma count_true_app l l' : count_true (l ++ l') = (count_true l + count_true l')%nat.
Proof. unfold count_true. rewrite filter_app, app_length. reflexivity. Qed.

Lemma count_true_seq t f : count_true (map f (seq 0 t)) = how_many t f.
Proof.
  induction t as [|t IH]; auto. rewrite seq_S, map_app, count_true_app, IH. cbn. destruct (f t); reflexivity.
Qed.

Lemma how_many_ext t f g : (forall x, (x < t)%nat -> f x = g x) -> how_many t f = how_many t g.
Proof. intros H. induction t as [|t IH]; cbn; auto. rewrite IH, H by auto. reflexivity. Qed.

Lemma list_as_map {A} (l : list A) d : l = map (fun x => nth x l d) (seq 0 (List.length l)).
Proof.
  induction l as [|a l IH] using rev_ind; auto.
  rewrite app_length, Nat.add_1_r, seq_S, map_app. cbn [map Nat.add].
  rewrite app_nth2, Nat.sub_diag by lia. cbn [nth]. f_equal.
  rewrite IH at 1. apply map_ext_in. intros x Hx. apply in_seq in Hx. rewrite app_nth1; auto; lia.
Qed.

Lemma combine_seq {A B} (f : nat -> A) (g : nat -> B) t :
  combine (map f (seq 0 t)) (map g (seq 0 t)) = map (fun x => (f x, g x)) (seq 0 t).
Proof. generalize O. induction t as [|t IH]; intros a; cbn; auto. rewrite IH. reflexivity. Qed.

Lemma masked_seq (f : nat -> bool) (m : nat -> bool) t :
  count_true (masked (map f (seq 0 t)) (map m (seq 0 t))) = how_many t (fun x => m x && f x)%bool /\
  List.length (masked (map f (seq 0 t)) (map m (seq 0 t))) = how_many t m.
Proof.
  unfold masked. rewrite combine_seq. induction t as [|t [IH1 IH2]]; auto.
  rewrite seq_S, map_app, filter_app, map_app, count_true_app, app_length, IH1, IH2. cbn.
  destruct (m t); cbn; [|lia]. destruct (f t); cbn; lia.
Qed.

Lemma bool_mean_spec l : bool_mean l = match List.length l with O => NaN | S n => Fin (INR (count_true l) / INR (S n)) end.
Proof. destruct l; reflexivity. Qed.

Lemma np_argmax_spec n f : is_argmax (S n) f (np_argmax n f).
Proof.
  induction n as [|n (H1 & H2 & H3)]; cbn [np_argmax].
  - split; [lia|]. split; [|lia]. intros i Hi. replace i with O by lia. lra.
  - unfold Rltb. destruct (Rlt_dec (f (np_argmax n f)) (f (S n))) as [L|L].
    + split; [lia|]. split.
      * intros i Hi. destruct (Nat.eq_dec i (S n)) as [->|]; [lra|]. specialize (H2 i ltac:(lia)). lra.
      * intros i Hi. specialize (H2 i ltac:(lia)). lra.
    + split; [lia|]. split; auto. intros i Hi. destruct (Nat.eq_dec i (S n)) as [->|]; [lra|]. apply H2; lia.
Qed.

Lemma is_argmax_unique n f p p' : is_argmax n f p -> is_argmax n f p' -> p = p'.
Proof.
  intros (A1 & A2 & A3) (B1 & B2 & B3). destruct (Nat.lt_trichotomy p p') as [H|[H|H]]; auto; exfalso.
  - pose proof (B3 p H). pose proof (A2 p' B1). lra.
  - pose proof (A3 p' H). pose proof (B2 p A1). lra.
Qed.

Lemma bool_mean_masked f m t : bool_mean (masked (map f (seq 0 t)) (map m (seq 0 t))) =
  if (how_many t m =? 0)%nat then NaN else Fin (INR (how_many t (fun x => m x && f x)%bool) / INR (how_many t m)).
Proof.
  destruct (masked_seq f m t) as [E1 E2]. rewrite bool_mean_spec, E1, E2. destruct (how_many t m); reflexivity.
Qed.

Lemma uq_row_seq right m t :
  exists row, uq_row (map right (seq 0 t)) (map m (seq 0 t)) = Ok row /\ report_row t right m row.
Proof.
  unfold uq_row. rewrite !map_length, !seq_length, Nat.eqb_refl.
  eexists. split; [reflexivity|]. cbn [report_row].
  rewrite map_map, count_true_seq. split; [reflexivity|].
  rewrite !bool_mean_masked. split; [|reflexivity]. destruct (how_many t m =? 0)%nat; reflexivity.
Qed.
Lemma uq_row_ok right mask t : List.length mask = t ->
  exists row, uq_row (map right (seq 0 t)) mask = Ok row /\ report_row t right (fun x => nth x mask false) row.
Proof.
  intros Hl. destruct (uq_row_seq right (fun x => nth x mask false) t) as (row & E & H).
  exists row. split; auto. rewrite <- Hl in E at 2. rewrite <- (list_as_map mask false) in E. exact E.
Qed.

Lemma do_uq_ok predictions labels masks t c c' :
  shape predictions = [t; S c] -> shape labels = [t; S c'] -> (forall m, In m masks -> List.length m = t) ->
  exists acc rows right, do_uq predictions labels masks = Ok (acc, rows) /\
    (forall x, (x < t)%nat -> (right x = true <-> exists p, is_argmax (S c) (fun i => at_ predictions [x; i]) p /\
                                                 is_argmax (S c') (fun i => at_ labels [x; i]) p)) /\
    acc = (if (t =? 0)%nat then NaN else Fin (INR (how_many t right) / INR t)) /\
    List.length rows = List.length masks /\
    forall o mask, nth_error masks o = Some mask -> exists row, nth_error rows o = Some row /\
      report_row t right (fun x => nth x mask false) row.
Proof.
  intros Hp Hl Hm. unfold do_uq, correct_rows. rewrite Hp, Hl, Nat.eqb_refl. cbn [bind].
  set (right := fun x => (np_argmax c (fun i => at_ predictions [x; i]) =? np_argmax c' (fun i => at_ labels [x; i]))%nat).
  assert (Hs : exists rows, sequence (map (uq_row (map right (seq 0 t))) masks) = Ok rows /\
     List.length rows = List.length masks /\
     forall o mask, nth_error masks o = Some mask -> exists row, nth_error rows o = Some row /\
      report_row t right (fun x => nth x mask false) row).
  { clear Hp Hl. induction masks as [|m masks IH]; cbn [map sequence].
    - exists []. split; auto. split; auto. intros [|o] mask H; discriminate.
    - destruct (uq_row_ok right m t) as (row & E & Hr); [apply Hm; cbn; auto|].
      destruct IH as (rows & E' & Hlen & Hrows); [intros; apply Hm; cbn; auto|].
      rewrite E; cbn [bind]. rewrite E'; cbn [bind]. exists (row :: rows). split; auto. split; [cbn; lia|].
      intros [|o] mask Ho; [|apply Hrows; auto]. cbn in Ho. injection Ho as <-. exists row. auto. }
  destruct Hs as (rows & E & Hlen & Hrows). rewrite E; cbn [bind].
  eexists _, rows, right. split; [reflexivity|]. split.
  { intros x Hx. unfold right. rewrite Nat.eqb_eq. split.
    - intros Eq. exists (np_argmax c (fun i => at_ predictions [x; i])). split; [apply np_argmax_spec|].
      rewrite Eq. apply np_argmax_spec.
    - intros (p & A & B). rewrite (is_argmax_unique _ _ _ _ (np_argmax_spec c _) A).
      rewrite (is_argmax_unique _ _ _ _ (np_argmax_spec c' _) B). reflexivity. }
  split; [|auto]. rewrite bool_mean_spec, map_length, seq_length, count_true_seq. destruct t; reflexivity.
Qed.

Lemma do_uq_bad_mask predictions labels t c c' m :
  shape predictions = [t; S c] -> shape labels = [t; S c'] -> List.length m <> t ->
  do_uq predictions labels [m] = Err IndexError.
Proof.
  intros Hp Hl Hm. unfold do_uq, correct_rows. rewrite Hp, Hl, Nat.eqb_refl. cbn [bind map sequence].
  unfold uq_row. rewrite map_length, seq_length. destruct (Nat.eqb_spec (List.length m) t); [contradiction|]. reflexivity.
Qed.

(** Error rates and cutoffs. *)
Lemma combine_as_seq {A B} (l : list A) (l' : list B) d d' : List.length l = List.length l' ->
  combine l l' = map (fun x => (nth x l d, nth x l' d')) (seq 0 (List.length l)).
Proof.
  intros H. rewrite (list_as_map l d) at 1. rewrite (list_as_map l' d') at 1. rewrite <- H. apply combine_seq.
Qed.

Lemma rates mean var right cut t : List.length mean = t -> List.length var = t ->
  let hit := fun x => in_train_interval (nth x mean 0) (nth x var 0) cut in
  let wrong := how_many t (fun x => negb (right x)) in
  let good := how_many t right in
  alpha mean var (map negb (map right (seq 0 t))) cut =
    (if (wrong =? 0)%nat then NaN else Fin (1 - INR (how_many t (fun x => negb (right x) && hit x)%bool) / INR wrong)) /\
  beta mean var (map right (seq 0 t)) cut =
    (if (good =? 0)%nat then NaN else Fin (INR (how_many t (fun x => right x && hit x)%bool) / INR good)).
Proof.
  intros Hm Hv hit wrong good. unfold alpha, beta.
  rewrite (combine_as_seq mean var 0 0) by congruence. rewrite Hm, !map_map. cbn [fst snd].
  rewrite !bool_mean_masked. fold hit. fold good. fold wrong. split; [|reflexivity].
  destruct (wrong =? 0)%nat; reflexivity.
Qed.

Lemma grid_count_val : INR grid_count = 1999.
Proof. unfold grid_count. rewrite INR_IZR_INZ, Z2Nat.id by lia. reflexivity. Qed.
Lemma grid_pos : (0 < grid_count)%nat.
Proof. apply INR_lt. rewrite grid_count_val. cbn. lra. Qed.

Lemma cutv_bounds i : (i < grid_count)%nat -> 1 / 100 <= cutv i <= 20.
Proof.
  intros H. assert (INR i + 1 <= 1999).
  { rewrite <- S_INR, <- grid_count_val. apply le_INR. lia. }
  pose proof (pos_INR i). unfold cutv. lra.
Qed.

Lemma cutv_grid i : (i < grid_count)%nat -> on_cutoff_grid (cutv i).
Proof.
  intros H. exists i. assert (INR i + 1 <= 1999).
  { rewrite <- S_INR, <- grid_count_val. apply le_INR. lia. }
  split; [lra|]. unfold cutv. field.
Qed.
Lemma grid_cutv c : on_cutoff_grid c -> exists i, (i < grid_count)%nat /\ c = cutv i.
Proof.
  intros (i & Hi & ->). exists i. split; [|unfold cutv; field].
  apply INR_lt. rewrite grid_count_val. lra.
Qed.

Lemma train_cutoffs_grid mean1 var correct objectives cuts :
  train_cutoffs mean1 var correct objectives = Ok cuts ->
  List.length cuts = List.length objectives /\
  forall c, In c cuts -> on_cutoff_grid c /\ 1 / 100 <= c <= 20.
Proof.
  unfold train_cutoffs. revert cuts. induction objectives as [|f fs IH]; cbn [map sequence]; intros cuts H.
  { injection H as <-. split; auto. intros c []. }
  destruct (norm_index grid_count _) as [i|] eqn:E; cbn [bind] in H; [|discriminate].
  destruct (sequence _) as [l|] eqn:E'; cbn [bind] in H; [|discriminate]. injection H as <-.
  destruct (IH l eq_refl) as [H1 H2]. split; [cbn; lia|]. intros c [<-|Hc]; [|auto].
  assert (Hi : (i < grid_count)%nat) by (apply norm_index_some in E; apply E).
  split; [apply cutv_grid; auto|]. apply cutv_bounds; auto.
Qed.

(** np.argmin. *)
Lemma argmin_le n f : (np_argmin n f <= n)%nat.
Proof. induction n as [|n IH]; cbn [np_argmin]; auto. destruct (is_nan (f (np_argmin n f))); [lia|]. destruct (is_nan (f (S n))); [lia|]. destruct (num_ltb _ _); lia. Qed.

Lemma argmin_fin n (f : nat -> num) (h : nat -> R) : (forall i, (i <= n)%nat -> f i = Fin (h i)) ->
  (forall i, (i <= n)%nat -> h (np_argmin n f) <= h i) /\
  (forall i, (i < np_argmin n f)%nat -> h (np_argmin n f) < h i).
Proof.
  induction n as [|n IH]; intros H.
  - cbn. split; [intros i Hi; replace i with O by lia; lra|lia].
  - destruct IH as [H1 H2]; [intros; apply H; lia|]. pose proof (argmin_le n f) as Hle. cbn [np_argmin].
    rewrite (H (S n)) by lia. rewrite (H (np_argmin n f)) by lia. cbn [is_nan num_ltb]. unfold Rltb.
    destruct (Rlt_dec _ _) as [L|L].
    + split; intros i Hi.
      * destruct (Nat.eq_dec i (S n)) as [->|]; [lra|]. specialize (H1 i ltac:(lia)). lra.
      * specialize (H1 i ltac:(lia)). lra.
    + split; intros i Hi; [|apply H2; auto]. destruct (Nat.eq_dec i (S n)) as [->|]; [lra|]. apply H1; lia.
Qed.

Lemma argmin_nan n f : f O = NaN -> np_argmin n f = O.
Proof. intros H. induction n as [|n IH]; auto. cbn [np_argmin]. rewrite IH, H. reflexivity. Qed.

Lemma norm_index_nat n i : (i < n)%nat -> norm_index n (Z.of_nat i) = Some i.
Proof.
  intros H. unfold norm_index. destruct (_ && _)%bool eqn:E.
  - rewrite Nat2Z.id. reflexivity.
  - exfalso. apply andb_false_iff in E. rewrite Z.leb_gt, Z.ltb_ge in E. lia.
Qed.

Lemma grid_pred_lt i : (i <= grid_count - 1)%nat -> (i < grid_count)%nat.
Proof. pose proof grid_pos. lia. Qed.

Lemma weighted_optimal mean var right t a hit : List.length mean = t -> List.length var = t ->
  (forall x cut, (x < t)%nat -> (hit cut x = true <-> interval_contains (nth x mean 0) (cut * sqrt (nth x var 0)) 0)) ->
  (0 < how_many t right)%nat -> (0 < how_many t (fun x => negb (right x)))%nat ->
  exists cut, train_cutoffs mean var (map right (seq 0 t)) [weighted_objective a] = Ok [cut] /\
    on_cutoff_grid cut /\
    forall cut', on_cutoff_grid cut' ->
      a * (1 - fraction t (fun x => negb (right x)) (hit cut)) + fraction t right (hit cut) <=
      a * (1 - fraction t (fun x => negb (right x)) (hit cut')) + fraction t right (hit cut').
Proof.
  intros Hm Hv Hh Hr Hw. unfold train_cutoffs. cbn [map sequence]. unfold weighted_objective at 1.
  set (f := fun i => num_lin a _ 1 _).
  assert (Hhit : forall cut x, (x < t)%nat -> in_train_interval (nth x mean 0) (nth x var 0) cut = hit cut x).
  { intros cut x Hx. apply eq_true_iff_eq. rewrite in_train_spec, Hh by auto. reflexivity. }
  assert (Hf : forall i, (i <= grid_count - 1)%nat -> f i =
     Fin (a * (1 - fraction t (fun x => negb (right x)) (hit (cutv i))) + fraction t right (hit (cutv i)))).
  { intros i Hi. unfold f. destruct (rates mean var right (cutv i) t Hm Hv) as [-> ->].
    destruct (Nat.eqb_spec (how_many t (fun x => negb (right x))) 0); [lia|].
    destruct (Nat.eqb_spec (how_many t right) 0); [lia|]. cbn [num_lin]. f_equal.
    unfold fraction.
    rewrite (how_many_ext t (fun x => negb (right x) && in_train_interval (nth x mean 0%R) (nth x var 0%R) (cutv i))%bool
                            (fun x => negb (right x) && hit (cutv i) x)%bool) by (intros; rewrite Hhit by auto; auto).
    rewrite (how_many_ext t (fun x => right x && in_train_interval (nth x mean 0%R) (nth x var 0%R) (cutv i))%bool
                            (fun x => right x && hit (cutv i) x)%bool) by (intros; rewrite Hhit by auto; auto).
    ring. }
  destruct (argmin_fin _ f _ Hf) as [H1 _]. pose proof (grid_pred_lt _ (argmin_le (grid_count - 1) f)) as Hi.
  rewrite norm_index_nat by auto. cbn [bind]. eexists. split; [reflexivity|].
  split; [apply cutv_grid; auto|]. intros c' Hc'. destruct (grid_cutv c' Hc') as (i & Hi' & ->). apply H1. lia.
Qed.

Lemma how_many_split t P Q : (how_many t (fun x => P x && Q x) + how_many t (fun x => P x && negb (Q x)))%nat = how_many t P.
Proof. induction t as [|t IH]; auto. cbn [how_many]. destruct (P t), (Q t); cbn; lia. Qed.

Lemma cutv_inj_lt i j : cutv i < cutv j -> (i < j)%nat.
Proof. unfold cutv. intros H. apply INR_lt. lra. Qed.

(** The counted objective picks the smallest grid cutoff with the fewest rows on the wrong side. *)
Lemma counted_optimal mean var right t hit : List.length mean = t -> List.length var = t ->
  (forall x cut, (x < t)%nat -> (hit cut x = true <-> interval_contains (nth x mean 0) (cut * sqrt (nth x var 0)) 0)) ->
  (0 < how_many t right)%nat -> (0 < how_many t (fun x => negb (right x)))%nat ->
  let bad cut := (how_many t (fun x => negb (right x) && negb (hit cut x)) + how_many t (fun x => right x && hit cut x))%nat in
  exists cut, train_cutoffs mean var (map right (seq 0 t)) [counted_objective] = Ok [cut] /\
    on_cutoff_grid cut /\
    forall cut', on_cutoff_grid cut' -> (bad cut <= bad cut')%nat /\ (cut' < cut -> (bad cut < bad cut')%nat).
Proof.
  intros Hm Hv Hh Hr Hw bad. unfold train_cutoffs. cbn [map sequence]. unfold counted_objective at 1.
  set (f := fun i => num_lin _ _ _ _).
  assert (Hhit : forall cut x, (x < t)%nat -> in_train_interval (nth x mean 0) (nth x var 0) cut = hit cut x).
  { intros cut x Hx. apply eq_true_iff_eq. rewrite in_train_spec, Hh by auto. reflexivity. }
  assert (Hf : forall i, (i <= grid_count - 1)%nat -> f i = Fin (INR (bad (cutv i)))).
  { intros i Hi. unfold f. destruct (rates mean var right (cutv i) t Hm Hv) as [-> ->].
    destruct (Nat.eqb_spec (how_many t (fun x => negb (right x))) 0); [lia|].
    destruct (Nat.eqb_spec (how_many t right) 0); [lia|]. cbn [num_lin]. f_equal.
    rewrite (how_many_ext t (fun x => negb (right x) && in_train_interval (nth x mean 0%R) (nth x var 0%R) (cutv i))%bool
                            (fun x => negb (right x) && hit (cutv i) x)%bool) by (intros; rewrite Hhit by auto; auto).
    rewrite (how_many_ext t (fun x => right x && in_train_interval (nth x mean 0%R) (nth x var 0%R) (cutv i))%bool
                            (fun x => right x && hit (cutv i) x)%bool) by (intros; rewrite Hhit by auto; auto).
    rewrite map_map, !count_true_seq. unfold bad. rewrite plus_INR.
    pose proof (f_equal INR (how_many_split t (fun x => negb (right x)) (hit (cutv i)))) as Es. rewrite plus_INR in Es. cbn beta in Es.
    pose proof (lt_0_INR _ Hr). pose proof (lt_0_INR _ Hw). rewrite <- Es. rewrite <- Es in *. field. lra. }
  destruct (argmin_fin _ f _ Hf) as [H1 H2]. pose proof (grid_pred_lt _ (argmin_le (grid_count - 1) f)) as Hi.
  rewrite norm_index_nat by auto. cbn [bind]. eexists. split; [reflexivity|].
  split; [apply cutv_grid; auto|]. intros c' Hc'. destruct (grid_cutv c' Hc') as (i & Hi' & ->). split.
  - apply INR_le, H1. lia.
  - intros Hlt. apply INR_lt, H2, cutv_inj_lt, Hlt.
Qed.

(** Without misclassified batch points (or without correct ones) every example objective
    returns the smallest cutoff. *)
Lemma degenerate_cutoffs mean var right t : List.length mean = t -> List.length var = t ->
  how_many t right = O \/ how_many t (fun x => negb (right x)) = O ->
  train_cutoffs mean var (map right (seq 0 t)) example_lambdas = Ok (repeat (1 / 100) 5).
Proof.
  intros Hm Hv Hd.
  assert (H : forall a b i, num_lin a (alpha mean var (map negb (map right (seq 0 t))) (cutv i)) b
                                     (beta mean var (map right (seq 0 t)) (cutv i)) = NaN).
  { intros a b i. destruct (rates mean var right (cutv i) t Hm Hv) as [-> ->]. destruct Hd as [E|E]; rewrite E; cbn.
    - destruct (_ =? 0)%nat; reflexivity.
    - reflexivity. }
  assert (E : cutv O = 1 / 100) by (unfold cutv; cbn; lra).
  unfold train_cutoffs, example_lambdas. cbn [map sequence]. unfold weighted_objective, counted_objective.
  rewrite !argmin_nan by apply H. rewrite !norm_index_nat by apply grid_pos. cbn [bind]. rewrite E. reflexivity.
Qed.
