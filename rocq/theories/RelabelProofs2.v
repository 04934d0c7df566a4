(** Renumbering classes and reordering rows: sampled balanced batches and the training objective of a classifier. *)
From Coq Require Import Lia Lra Permutation Sorted.
From Verif Require Import Base BaseFacts NdModel NdFacts RSum LinAlgModel LinAlgSpec LinAlgFacts
  GPModel NoiseModel MuyGPSModel MuyGPSProofs GPSpec GPTheorems TensorModel TensorSpec TensorProofs
  HyperModel HyperSpec NamedModel NamedSpec NamedProofs KernelModel KernelSpec FlowModel FlowSpec FlowProofs PointwiseSpec LibSpec LibProofs
  LossModel LossSpec LossProofs ChassisModel ChassisSpec ChassisProofs ObjectiveProofs MultiModel DriverModel ClassifyModel ClassifySpec ClassifyProofs ClassifyLemmas
  WorkModel WorkSpec WorkProofs WorkLemmas NeighborsModel NeighborsSpec NeighborsProofs BatchProofs BatchLemmas
  TrainModel TrainSpec TrainProofs TrainProofs2 TrainProofs3 UqWorkProofs UnitsProofs2 UnitsProofs3 SimTrainSpec SimTrainProofs SimTrainProofs2 ClassTrainModel ClassTrainSpec ClassTrainProofs
  RelabelSpec RelabelProofs OrderSpec OrderProofs OrderProofs2.
Local Open Scope R_scope.

(** ** The classes that occur *)
Definition present (N : nat) (cl : nat -> nat) (m : nat) : list nat := filter (occurs N cl) (seq 0 m).
Lemma occurs_iff N cl c : occurs N cl c = true <-> exists i, (i < N)%nat /\ cl i = c.
Proof.
  unfold occurs. rewrite existsb_exists. split; intros (i & A & B).
  - apply in_seq in A. apply Nat.eqb_eq in B. exists i. split; [lia|exact B].
  - exists i. split; [apply in_seq; lia|apply Nat.eqb_eq; exact B].
Qed.
Lemma present_in N cl m c : (forall i, (i < N)%nat -> (cl i < m)%nat) -> (In c (present N cl m) <-> exists i, (i < N)%nat /\ cl i = c).
Proof.
  intros B. unfold present. rewrite filter_In, in_seq, occurs_iff. split; [tauto|]. intros (i & Hi & E). split; [|eauto]. specialize (B i Hi). lia.
Qed.
Lemma present_nodup N cl m : NoDup (present N cl m).
Proof. apply NoDup_filter, seq_NoDup. Qed.
Lemma present_rank N cl m c : (c < m)%nat -> occurs N cl c = true ->
  (List.length (filter (occurs N cl) (seq 0 c)) < List.length (present N cl m))%nat /\
  nth (List.length (filter (occurs N cl) (seq 0 c))) (present N cl m) O = c.
Proof.
  intros Hc Oc. unfold present. replace m with (c + S (m - S c))%nat by lia. rewrite seq_app, filter_app. cbn [seq filter]. rewrite Nat.add_0_l, Oc.
  split; [rewrite app_length; cbn [List.length]; lia|]. rewrite app_nth2 by lia. rewrite Nat.sub_diag. reflexivity.
Qed.
Lemma present_nth N cl m j : (forall i, (i < N)%nat -> (cl i < m)%nat) -> (j < List.length (present N cl m))%nat ->
  nth_class N cl j (nth j (present N cl m) O).
Proof.
  intros B Hj. set (c := nth j (present N cl m) O).
  assert (I : In c (present N cl m)) by (apply nth_In; exact Hj). pose proof I as I'. apply (present_in N cl m c B) in I'. apply occurs_iff in I'.
  unfold present in I. apply filter_In in I as [I _]. apply in_seq in I. destruct (present_rank N cl m c) as [A E]; [lia|exact I'|].
  split; [exact I'|]. apply (proj1 (NoDup_nth _ O) (present_nodup N cl m)); auto.
Qed.
Lemma nth_class_present N cl m j c : (forall i, (i < N)%nat -> (cl i < m)%nat) -> nth_class N cl j c ->
  (j < List.length (present N cl m))%nat /\ nth j (present N cl m) O = c.
Proof.
  intros B [O1 <-]. apply present_rank; [|exact O1]. apply occurs_iff in O1 as (i & Hi & <-). auto.
Qed.

(** Two strictly increasing lists with the same elements are equal. *)
Lemma sorted_ext (l l' : list R) : StronglySorted Rlt l -> StronglySorted Rlt l' -> (forall x, In x l <-> In x l') -> l = l'.
Proof.
  intros S. revert l'. induction S as [|a l SS IH HF]; intros l' S' E.
  - destruct l' as [|b l']; [reflexivity|]. exfalso. apply (proj2 (E b)). left; reflexivity.
  - inversion S' as [|b l0 SS' HF' EQ].
    + subst l'. exfalso. apply (proj1 (E a)). left; reflexivity.
    + subst l'. rename l0 into l'. rewrite Forall_forall in HF, HF'.
      assert (a = b).
      { destruct (proj1 (E a) (or_introl eq_refl)) as [X|X]; [auto|]. destruct (proj2 (E b) (or_introl eq_refl)) as [Y|Y]; [auto|].
        specialize (HF b Y). specialize (HF' a X). lra. }
      subst b. f_equal. apply IH; auto. intros x. split; intros H.
      * destruct (proj1 (E x) (or_intror H)) as [X|X]; [|exact X]. subst x. specialize (HF a H). lra.
      * destruct (proj2 (E x) (or_intror H)) as [X|X]; [|exact X]. subst x. specialize (HF' a H). lra.
Qed.
Lemma INR_sorted a m (f : nat -> bool) : StronglySorted Rlt (map INR (filter f (seq a m))).
Proof.
  revert a. induction m as [|m IH]; intros a; [constructor|]. cbn [seq filter]. destruct (f a); [|apply IH]. cbn [map]. constructor; [apply IH|].
  apply Forall_forall. intros x Hx. apply in_map_iff in Hx as (c & <- & Hc). apply filter_In in Hc as [Hc _]. apply in_seq in Hc. apply lt_INR. lia.
Qed.
Lemma unique_present N cl m classes : List.length classes = N -> (forall i, (i < N)%nat -> nth i classes 0 = INR (cl i)) ->
  (forall i, (i < N)%nat -> (cl i < m)%nat) -> unique classes = map INR (present N cl m).
Proof.
  intros L V B. apply sorted_ext; [apply unique_sorted|apply INR_sorted|]. intros x. rewrite unique_in, in_map_iff. split.
  - intros H. destruct (In_nth _ _ 0 H) as (i & Hi & <-). rewrite L in Hi. rewrite V by auto. exists (cl i). split; [reflexivity|].
    apply (present_in N cl m); eauto.
  - intros (c & <- & Hc). apply (present_in N cl m c B) in Hc as (i & Hi & <-). rewrite <- V by auto. apply nth_In. lia.
Qed.

(** ** Which rows a sampled batch holds *)
Section B.
Variable knn : dict nnval -> list point -> point -> nat -> list (nat * R).
Variable hnsw : nnval -> list point -> point -> nat -> list (nat * R).

Lemma balanced_members w labels bc draw idx nns : (bc < List.length labels)%nat -> integral labels ->
  get_balanced_batch knn hnsw w labels bc draw = Ok (idx, nns) ->
  exists pool, (forall c, NoDup (pool c)) /\
    (forall c i, In i (pool c) <-> (i < List.length labels)%nat /\ nth i labels 0 = c /\ mixed labels (nn_of knn hnsw w i)) /\
    forall i, In i idx <-> exists j, (j < List.length (unique labels))%nat /\
      In i (draw j (pool (nth j (unique labels) 0)) (Nat.min (List.length (pool (nth j (unique labels) 0))) (bc / List.length (unique labels)))).
Proof.
  intros LT HI H. unfold get_balanced_batch in H. apply Nat.ltb_lt in LT. rewrite LT in H. unfold sample_balanced_batch in H. set (n := List.length labels) in *.
  destruct (get_batch_nns knn hnsw w (seq 0 n)) as [[I D]|] eqn:E; cbn [bind fst] in H; [|discriminate].
  destruct (sequence (map (nonconstant_row labels) I)) as [mask|] eqn:EM; cbn [bind] in H; [|discriminate].
  destruct (List.length (unique labels) =? 0)%nat eqn:EC; [discriminate|]. injection H as EI EN. apply batch_nns_all in E. subst I.
  assert (MN : forall i, (i < n)%nat -> nonconstant_row labels (nn_of knn hnsw w i) = Ok (nth i mask false)).
  { intros i Hi. rewrite <- (mask_nth labels _ mask i [] EM) by (rewrite map_length, seq_length; assumption).
    rewrite (nth_map (nn_of knn hnsw w) _ O) by (rewrite seq_length; assumption). rewrite seq_nth by assumption. reflexivity. }
  exists (candidates mask labels). split; [intros; apply NoDup_filter, seq_NoDup|]. split.
  - intros c i. unfold candidates. rewrite filter_In, in_seq, andb_true_iff, Reqb_eq. fold n. split.
    + intros (A & M & V). assert (Hi : (i < n)%nat) by lia. split; [exact Hi|]. split; [exact V|]. apply nonconstant_row_true. rewrite MN, M by exact Hi. reflexivity.
    + intros (A & V & M). split; [lia|]. split; [|exact V]. destruct (nth i mask false) eqn:Em; [reflexivity|exfalso].
      apply (nonconstant_row_false labels (nn_of knn hnsw w i) HI); [|assumption]. rewrite MN by assumption. rewrite Em. reflexivity.
  - intros i. rewrite <- EI, in_flat_map. split.
    + intros (j & Hj & X). apply in_seq in Hj. exists j. split; [lia|exact X].
    + intros (j & Hj & X). exists j. split; [apply in_seq; lia|exact X].
Qed.

Section Match.
Variables (w w' : nn_wrapper) (N m bc : nat) (p sg cl : nat -> nat) (classes classes' : list R) (draw draw' : nat -> list nat -> nat -> list nat)
  (idx idx' : list nat) (nns nns' : list (list nat)).
Hypothesis PM : perm_on N p.
Hypothesis SG : perm_on m sg.
Hypothesis CB : forall i, (i < N)%nat -> (cl i < m)%nat.
Hypothesis L : List.length classes = N.
Hypothesis L' : List.length classes' = N.
Hypothesis V : forall i, (i < N)%nat -> nth i classes 0 = INR (cl i).
Hypothesis V' : forall i, (i < N)%nat -> nth i classes' 0 = INR (sg (cl (p i))).
Hypothesis IC : integral classes.
Hypothesis IC' : integral classes'.
Hypothesis EB : get_balanced_batch knn hnsw w classes bc draw = Ok (idx, nns).
Hypothesis EB' : get_balanced_batch knn hnsw w' classes' bc draw' = Ok (idx', nns').
Hypothesis NB : forall a, (a < N)%nat -> nn_of knn hnsw w (p a) = map p (nn_of knn hnsw w' a).
Hypothesis NR : forall a i, (a < N)%nat -> In i (nn_of knn hnsw w' a) -> (i < N)%nat.
Hypothesis SD : same_draws N p sg cl (fun a => sg (cl (p a))) draw draw'.
Hypothesis HD : forall j pop c, (c <= List.length pop)%nat -> NoDup pop -> valid_choice pop c (draw j pop c).
Hypothesis HD' : forall j pop c, (c <= List.length pop)%nat -> NoDup pop -> valid_choice pop c (draw' j pop c).

Lemma mixed_match a : (a < N)%nat -> (mixed classes' (nn_of knn hnsw w' a) <-> mixed classes (nn_of knn hnsw w (p a))).
Proof.
  intros Ha. unfold mixed. rewrite NB by auto. split.
  - intros (i & j & Hi & Hj & NE). exists (p i), (p j). split; [apply in_map; auto|]. split; [apply in_map; auto|].
    pose proof (NR a i Ha Hi) as Bi. pose proof (NR a j Ha Hj) as Bj. rewrite V' in NE by auto. rewrite V' in NE by auto. rewrite !V by (apply PM; auto).
    intros E. apply NE. apply INR_eq in E. rewrite E. reflexivity.
  - intros (i & j & Hi & Hj & NE). apply in_map_iff in Hi as (i0 & <- & Hi). apply in_map_iff in Hj as (j0 & <- & Hj). exists i0, j0. split; [auto|]. split; [auto|].
    pose proof (NR a i0 Ha Hi) as Bi. pose proof (NR a j0 Ha Hj) as Bj. rewrite V, V in NE by (apply PM; auto). rewrite !V' by auto.
    intros E. apply NE. apply INR_eq in E. f_equal. apply (proj2 SG) in E; [exact E|apply CB; apply PM; auto|apply CB; apply PM; auto].
Qed.

Lemma CB' : forall i, (i < N)%nat -> (sg (cl (p i)) < m)%nat.
Proof. intros i Hi. apply SG, CB, PM, Hi. Qed.

Lemma present_match c : In c (present N cl m) <-> In (sg c) (present N (fun a => sg (cl (p a))) m) /\ (c < m)%nat.
Proof.
  rewrite (present_in N cl m c CB), (present_in N _ m (sg c) CB'). split.
  - intros (i & Hi & <-). split; [|auto]. destruct (perm_inverse N p PM i Hi) as (a & Ha & <-). exists a. auto.
  - intros ((a & Ha & E) & Hc). apply (proj2 SG) in E; auto; [|apply CB; apply PM; auto]. exists (p a). split; [apply PM; auto|exact E].
Qed.
Lemma present_count : List.length (present N (fun a => sg (cl (p a))) m) = List.length (present N cl m).
Proof.
  rewrite <- (map_length sg (present N cl m)). apply Permutation_length. apply NoDup_Permutation.
  - apply present_nodup.
  - pose proof (present_nodup N cl m) as ND. assert (B : forall c, In c (present N cl m) -> (c < m)%nat) by (intros c Hc; apply present_match in Hc; tauto).
    revert B. induction ND as [|c l NI ND IH]; intros B; [constructor|]. cbn [map]. constructor.
    + intros X. apply in_map_iff in X as (d & E & Hd). apply NI. apply (proj2 SG) in E; [subst d; exact Hd|apply B; right; exact Hd|apply B; left; reflexivity].
    + apply IH. intros d Hd. apply B. right. exact Hd.
  - intros d. rewrite in_map_iff. split.
    + intros Hd. assert (Bd : (d < m)%nat).
      { apply (present_in N _ m d CB') in Hd as (a & Ha & <-). apply CB'; auto. }
      destruct (perm_inverse m sg SG d Bd) as (c & Hc & <-). exists c. split; [reflexivity|]. apply present_match. auto.
    + intros (c & <- & Hc). apply present_match in Hc. tauto.
Qed.

Lemma members_match a : (a < N)%nat -> (In a idx' <-> In (p a) idx).
Proof.
  intros Ha. pose proof (proj1 PM a Ha) as Hp.
  destruct (le_lt_dec N bc) as [GE|LT].
  - destruct (balanced_sizes knn hnsw _ _ _ _ _ _ EB) as [G1 G2]. destruct (balanced_sizes knn hnsw _ _ _ _ _ _ EB') as [G1' G2'].
    rewrite L in G1. rewrite L' in G1'.
    rewrite (balanced_full knn hnsw _ _ _ _ _ _ EB' ltac:(lia) IC' a ltac:(lia)), (balanced_full knn hnsw _ _ _ _ _ _ EB ltac:(lia) IC (p a) ltac:(lia)).
    split; intros (nn & X & Y); apply neighbourhood_iff in X as (_ & _ & ->).
    + exists (nn_of knn hnsw w (p a)). split; [apply neighbourhood_iff; auto|]. apply mixed_match; auto.
    + exists (nn_of knn hnsw w' a). split; [apply neighbourhood_iff; auto|]. apply mixed_match; auto.
  - destruct (balanced_members w classes bc draw idx nns ltac:(lia) IC EB) as (pool & ND & PI & MI).
    destruct (balanced_members w' classes' bc draw' idx' nns' ltac:(lia) IC' EB') as (pool' & ND' & PI' & MI').
    rewrite MI, MI'. rewrite L in PI. rewrite L' in PI'.
    rewrite (unique_present N cl m classes L V CB), (unique_present N _ m classes' L' V' CB'), !map_length, present_count.
    set (P := present N cl m). set (P' := present N (fun a => sg (cl (p a))) m).
    assert (LP : List.length P' = List.length P) by apply present_count.
    assert (NP : forall j, (j < List.length P)%nat -> nth j (map INR P) 0 = INR (nth j P O)) by (intros j Hj; exact (nth_map INR P O 0 j Hj)).
    assert (NP' : forall j, (j < List.length P)%nat -> nth j (map INR P') 0 = INR (nth j P' O)) by (intros j Hj; apply (nth_map INR P' O 0 j); lia).
    assert (PE : forall c i, (i < N)%nat -> (c < m)%nat -> (In i (pool' (INR (sg c))) <-> In (p i) (pool (INR c)))).
    { intros c i Hi Hc. pose proof (proj1 PM i Hi) as Hpi. rewrite PI, PI', (mixed_match i Hi), V, V' by auto. split.
      - intros (_ & E & X). split; [auto|]. split; [|exact X]. apply INR_eq in E. f_equal. apply (proj2 SG) in E; auto.
      - intros (_ & E & X). split; [auto|]. split; [|exact X]. apply INR_eq in E. rewrite E. reflexivity. }
    assert (PL : forall c, (c < m)%nat -> List.length (pool' (INR (sg c))) = List.length (pool (INR c))).
    { intros c Hc. rewrite <- (map_length p (pool' (INR (sg c)))). apply Permutation_length. apply NoDup_Permutation.
      - assert (B : forall i, In i (pool' (INR (sg c))) -> (i < N)%nat) by (intros i Hi; apply PI' in Hi; tauto).
        pose proof (ND' (INR (sg c))) as X. revert B. induction X as [|i l NI X IH]; intros B; [constructor|]. cbn [map]. constructor.
        + intros Y. apply in_map_iff in Y as (j & E & Hj). apply NI. apply (proj2 PM) in E; [subst j; exact Hj|apply B; right; exact Hj|apply B; left; reflexivity].
        + apply IH. intros j Hj. apply B. right. exact Hj.
      - apply ND.
      - intros i. rewrite in_map_iff. split.
        + intros (j & <- & Hj). apply PE; auto. apply PI' in Hj. tauto.
        + intros Hi. pose proof Hi as Hi2. apply PI in Hi2 as (Bi & _). destruct (perm_inverse N p PM i Bi) as (j & Hj & <-). exists j. split; [reflexivity|]. apply PE; auto. }
    assert (DE : forall j j', (j < List.length P)%nat -> (j' < List.length P)%nat -> nth j' P' O = sg (nth j P O) ->
      (In a (draw' j' (pool' (nth j' (map INR P') 0)) (Nat.min (List.length (pool' (nth j' (map INR P') 0))) (bc / List.length P))) <->
       In (p a) (draw j (pool (nth j (map INR P) 0)) (Nat.min (List.length (pool (nth j (map INR P) 0))) (bc / List.length P))))).
    { intros j j' Hj Hj' E. rewrite NP, NP', E by auto. set (c := nth j P O) in *.
      assert (Hc : (c < m)%nat) by (assert (I : In c P) by (apply nth_In; exact Hj); apply present_match in I; tauto).
      rewrite PL by auto. apply (SD c j j'); auto.
      - apply present_nth; auto.
      - rewrite <- E. apply (present_nth N _ m j' CB'). fold P'. rewrite LP. exact Hj'.
      - intros i Hi. apply PI in Hi. tauto.
      - intros i Hi. apply PI' in Hi. tauto.
      - apply Nat.le_min_l. }
    split.
    + intros (j' & Hj' & X). assert (I : In (nth j' P' O) P') by (apply nth_In; lia). pose proof I as I2. apply (present_in N _ m _ CB') in I2 as (i & Hi & Ei).
      assert (I3 : In (cl (p i)) P) by (apply (present_in N cl m _ CB); exists (p i); split; [apply PM; auto|reflexivity]).
      destruct (In_nth _ _ O I3) as (j & Hj & Ej). exists j. split; [exact Hj|]. apply (DE j j'); auto. rewrite Ej. symmetry. exact Ei.
    + intros (j & Hj & X). assert (I : In (nth j P O) P) by (apply nth_In; exact Hj). apply present_match in I as [I _].
      destruct (In_nth _ _ O I) as (j' & Hj' & Ej). exists j'. fold P' in Hj'. rewrite LP in Hj'. split; [exact Hj'|]. apply (DE j j'); auto.
Qed.
End Match.
End B.

(** ** The training objective *)
Lemma class_loss_perm eps l b r (y s : nat -> nat -> R) pi : perm_on b pi ->
  class_loss eps l b r (fun x => y (pi x)) (fun x => s (pi x)) = class_loss eps l b r y s.
Proof.
  intros PI. destruct l; cbn [class_loss]; try reflexivity; apply (f_equal Some).
  - exact (rsum_perm b pi (fun x => rsum r (fun j => if Rltb 0 (y x j) then - ln (Rmin (Rmax (prob r (s x) j) eps) (1 - eps)) else 0)) PI).
  - f_equal. exact (rsum_perm b pi (fun x => rsum r (fun j => (s x j - y x j) ^ 2)) PI).
  - exact (rsum_perm b pi (fun x => rsum r (fun j => huber_entry (3/2) (y x j - s x j))) PI).
Qed.

Section Moved.
Variables (train train' labels labels1 labels' : nd R) (N r : nat) (p sg : nat -> nat).
Hypothesis RO : reordered train train' labels labels1 N [r] p.
Hypothesis RN : renumbered sg labels1 labels' N r.
Let zeros : nd R := mkNd [N] (fun _ => 0).
Lemma moved_rows : reordered train train' zeros zeros N [] p.
Proof. destruct RO as (PM & S1 & _ & RR). split; [exact PM|]. split; [exact S1|]. split; [reflexivity|]. intros a Ha. split; [apply RR; auto|]. reflexivity. Qed.
Lemma moved_label a j : (a < N)%nat -> (j < r)%nat -> at_ labels' [a; sg j] = at_ labels [p a; j].
Proof. intros Ha Hj. destruct RO as (_ & _ & _ & RR). destruct RN as (_ & _ & _ & HL). rewrite HL by auto. apply (proj2 (RR a Ha)). apply inb1. exact Hj. Qed.

Variables (b n : nat) (c c' : nat -> nat) (q q' : nat -> nat -> nat) (pi : nat -> nat).
Hypothesis PI : perm_on b pi.
Hypothesis HC : forall x, (x < b)%nat -> (c' x < N)%nat /\ c (pi x) = p (c' x).
Hypothesis HQ : forall x j, (x < b)%nat -> (j < n)%nat -> (q' x j < N)%nat /\ q (pi x) j = p (q' x j).

Section Value.
Variables (gamma : R -> R) (kv : R -> R -> R) (eps : R).
Lemma class_value_moved s F K l v v' :
  full_lib s F = Some K -> lk_ok K (feature_count train) (reals s) [] -> uniform_noise (full_noise s F) ->
  (forall x, (x < b)%nat -> nonsingular n (nbr_matrix (lk_cov gamma kv K (feature_count train) (reals s) []) (full_noise s F) train q x)) ->
  loo_class_value gamma kv eps s F l train labels b n r c q v -> loo_class_value gamma kv eps s F l train' labels' b n r c' q' v' -> v' = v.
Proof.
  intros L OK UN NS (K0 & sc & Lo & L1 & SC & CL & ->) (K1 & sc' & Lo' & L2 & SC' & CL' & ->).
  rewrite L in L1, L2. injection L1 as <-. injection L2 as <-.
  destruct (lk_pointwise gamma kv K _ _ _ OK) as [LC _]. pose proof moved_rows as R0.
  rewrite (order_features train train' zeros zeros N p R0) in SC'. set (k := lk_cov gamma kv K (feature_count train) (reals s) []) in *.
  assert (ES : forall x j, (x < b)%nat -> (j < r)%nat -> sc' x (sg j) = sc (pi x) j).
  { intros x j Hx Hj. symmetry. pose proof RN as (SGP & _). pose proof (proj1 PI x Hx) as Hp.
    refine (kriging_det n _ _ _ _ _ _ _ _ (NS (pi x) Hp) _ _ _ (SC (pi x) j Hp Hj) (SC' x (sg j) Hx (proj1 SGP j Hj))).
    - intros i i' Hi Hi'. symmetry. apply (nbr_order train train' zeros zeros N p R0 b n q q' pi HQ k); auto.
    - intros i Hi. destruct (HC x Hx) as [A ->]. destruct (HQ x i Hx Hi) as [B ->]. symmetry. apply (kcov_order train train' zeros zeros N p R0 k); auto.
    - intros i Hi. cbn beta. destruct (HQ x i Hx Hi) as [B ->]. symmetry. apply moved_label; auto. }
  pose proof RN as (SGP & _).
  rewrite (class_loss_renumbered eps l sg b r (fun x j => at_ labels [c (pi x); j]) (fun x => sc (pi x)) _ sc' SGP) in CL'; auto.
  - rewrite (class_loss_perm eps l b r (fun x j => at_ labels [c x; j]) sc pi PI) in CL'. rewrite CL in CL'. injection CL' as <-. reflexivity.
  - intros x j Hx Hj. destruct (HC x Hx) as [A ->]. apply moved_label; auto.
Qed.
End Value.

Lemma objective_moved ls : exact_solver ls -> forall slogdet eps gamma kv s F l draws ix nn ix' nn' names x0 bounds t t' v0,
  model_ok s F -> bounds_ok s F -> positive_bounds s F -> leading_free s (k_ls (m_kernel (f_attr F))) ->
  get_opt_params s (f_attr F) = Ok (names, x0, bounds) -> (f_kind F = FixedScale \/ ~ In "noise"%string names) ->
  trainable s F train b n -> loo_well_posed (full_noise s F) train b n c q -> (0 < b)%nat -> full_noise s F = HomoscedasticNoise v0 ->
  dataset train N -> shape labels = [N; r] -> (2 <= r)%nat -> r <> n ->
  shape ix = [b] -> (forall x, (x < b)%nat -> at_ ix [x] = Z.of_nat (c x) /\ (c x < N)%nat) -> index_matrix nn b n N q ->
  shape ix' = [b] -> (forall x, (x < b)%nat -> at_ ix' [x] = Z.of_nat (c' x) /\ (c' x < N)%nat) -> index_matrix nn' b n N q' ->
  scores_classes l ->
  full_train_tensors F ix nn train labels = Ok t -> full_train_tensors F ix' nn' train' labels' = Ok t' ->
  forall x, in_box x bounds -> exists v,
    obj_fn ls slogdet eps gamma kv s F l [] None draws (tr_pair t) (tr_cross t) (tr_nn_targets t) (tr_targets t) (combine names x) = Ok v /\
    obj_fn ls slogdet eps gamma kv s F l [] None draws (tr_pair t') (tr_cross t') (tr_nn_targets t') (tr_targets t') (combine names x) = Ok v.
Proof.
  intros EX slogdet eps gamma kv s F l draws ix nn ix' nn' names x0 bounds t t' v0 MO BO PB LF EO SK TR WP Hb HN D SH Hr RNn SI HCi IM SI' HCi' IM' SL Et Et' x BX.
  pose proof RN as (_ & _ & SH' & _). pose proof moved_rows as R0. pose proof RO as (_ & S1 & _).
  pose proof (order_features train train' zeros zeros N p R0) as FE.
  assert (D' : dataset train' N) by (unfold dataset; rewrite S1; exact D).
  assert (TR' : trainable s F train' b n).
  { destruct TR as (B & (K & L & OK) & R). split; [exact B|]. split; [|exact R]. exists K. rewrite FE. auto. }
  assert (UN : uniform_noise (full_noise s F)) by (right; eauto).
  pose proof (well_posed_order train train' zeros zeros N p R0 b n c c' q q' pi PI HC HQ _ UN WP) as WP'.
  destruct (class_candidate ls EX slogdet eps gamma kv s F l draws train labels ix nn N b n r c q names x0 bounds t
    MO BO PB LF EO SK TR WP Hb D SH Hr RNn SI HCi IM SL Et x BX) as (s1 & F1 & v & E1 & _ & O1 & V1 & TR1 & WP1).
  destruct (class_candidate ls EX slogdet eps gamma kv s F l draws train' labels' ix' nn' N b n r c' q' names x0 bounds t'
    MO BO PB LF EO SK TR' WP' Hb D' SH' Hr RNn SI' HCi' IM' SL Et' x BX) as (s2 & F2 & v' & E2 & _ & O2 & V2 & _ & _).
  rewrite E1 in E2. injection E2 as <- <-. destruct TR1 as (_ & (K & L & OK) & _).
  destruct (noise_stays_homo s F names bounds _ s1 F1 v0 E1 HN) as (v1 & HN1).
  exists v. split; [exact O1|]. rewrite O2. f_equal.
  apply (class_value_moved gamma kv eps s1 F1 K l v v'); auto.
  - right; eauto.
  - apply well_posed_ns; auto. apply (loo_wp _ _ _ _ c). exact WP1.
Qed.
End Moved.

(** ** make_classifier *)
Section Do.
Variable ls : lsolver.
Hypothesis EX : exact_solver ls.
Variable slogdet : nat -> mat -> R * R.
Variable eps : R.
Variables (gamma : R -> R) (kv : R -> R -> R).
Variable knn : dict nnval -> list point -> point -> nat -> list (nat * R).
Variable hnsw : nnval -> list point -> point -> nat -> list (nat * R).
Variable dist : dict nnval -> point -> point -> R.
Hypothesis Hsk : sklearn_ok knn dist.

Lemma train_moved en method kw w w0 train train' labels labels1 labels' N n r lo hi cl bc draw draw' s F l draws names x0 bounds opt p sg v0 :
  lower method = "exact"%string -> euclidean_kw kw -> nn_init en (rows_of train) n method kw = Ok w -> nn_init en (rows_of train') n method kw = Ok w0 ->
  (n + 1 <= N)%nat -> (0 < n)%nat ->
  dataset train N -> distinct_rows train N (fun i => i) -> one_hot labels N (S r) lo hi cl -> lo < hi ->
  reordered train train' labels labels1 N [S r] p -> renumbered sg labels1 labels' N (S r) ->
  (forall a, (a < N)%nat -> nn_of knn hnsw w (p a) = map p (nn_of knn hnsw w0 a)) ->
  (forall j pop c, (c <= List.length pop)%nat -> NoDup pop -> valid_choice pop c (draw j pop c)) ->
  (forall j pop c, (c <= List.length pop)%nat -> NoDup pop -> valid_choice pop c (draw' j pop c)) ->
  (N <= bc)%nat \/ same_draws N p sg cl (fun a => sg (cl (p a))) draw draw' ->
  model_ok s F -> bounds_ok s F -> positive_bounds s F -> leading_free s (k_ls (m_kernel (f_attr F))) ->
  get_opt_params s (f_attr F) = Ok (names, x0, bounds) -> (f_kind F = FixedScale \/ ~ In "noise"%string names) ->
  (forall b, trainable s F train b n) -> full_noise s F = HomoscedasticNoise v0 -> 0 <= v0 ->
  scores_classes l -> model_fixed s (f_attr F) = Ok false -> (1 <= r)%nat -> S r <> n ->
  (exists i, contested train N n cl i) -> (N <= bc)%nat \/ (class_number N cl <= bc)%nat -> values_only opt s F names bounds ->
  exists R, train_classifier ls slogdet eps gamma kv opt knn hnsw en train labels n bc method kw draw s F l draws = (let! m := R in Ok (fst m, snd m, w)) /\
    train_classifier ls slogdet eps gamma kv opt knn hnsw en train' labels' n bc method kw draw' s F l draws = (let! m := R in Ok (fst m, snd m, w0)).
Proof.
  intros Hm He Hi Hi0 Hn Hn0 D DR OH LH RO RN NB HD HD' SD0 MO BO PB LF EO SK TR HN Hv SL MF R1 RNn CT CN VO.
  pose proof RO as (PM & S1 & SL1 & RR). assert (D' : dataset train' N) by (unfold dataset; rewrite S1; exact D).
  pose proof (reordered_distinct _ _ _ _ _ _ _ RO DR) as DR'.
  assert (OH1 : one_hot labels1 N (S r) lo hi (fun a => cl (p a))).
  { destruct OH as (NE & SH & OH). split; [exact NE|]. split; [congruence|]. intros a Ha. pose proof (proj1 PM a Ha) as Hp. destruct (OH (p a) Hp) as [A B].
    split; [exact A|]. intros j Hj. rewrite <- B by auto. apply (proj2 (RR a Ha)). apply inb1. exact Hj. }
  pose proof (one_hot_renumbered sg labels1 labels' N (S r) lo hi _ RN OH1) as OH'. cbn beta in OH'.
  destruct (class_batch knn hnsw dist Hsk en method kw w train labels N n r lo hi cl bc draw Hm He Hi Hn Hn0 D DR OH LH HD)
    as (classes & idx & nns & EC & EB & LN & GB & POS).
  destruct (class_batch knn hnsw dist Hsk en method kw w0 train' labels' N n r lo hi _ bc draw' Hm He Hi0 Hn Hn0 D' DR' OH' LH HD')
    as (classes' & idx' & nns' & EC' & EB' & LN' & GB' & _).
  specialize (POS CT CN).
  destruct (argmax_labels_ok labels N r lo hi cl OH LH) as (classes1 & EC1 & LC & IC & HV). rewrite EC in EC1. injection EC1 as <-.
  destruct (argmax_labels_ok labels' N r lo hi _ OH' LH) as (classes1 & EC1 & LC' & IC' & HV'). rewrite EC' in EC1. injection EC1 as <-.
  assert (CB : forall i, (i < N)%nat -> (cl i < S r)%nat) by (intros i Hi'; apply OH; auto).
  assert (NR : forall a i, (a < N)%nat -> In i (nn_of knn hnsw w0 a) -> (i < N)%nat).
  { intros a i Ha Hin. destruct (balanced_sizes knn hnsw _ _ _ _ _ _ EB') as [G1 G2]. rewrite LC' in G1.
    destruct (neighbourhood_others knn hnsw dist Hsk en method kw w0 train' N n a (nn_of knn hnsw w0 a) Hm He Hi0 Hn D' DR' Ha) as [(B & _) LL].
    { apply neighbourhood_iff. auto. }
    destruct (In_nth _ _ O Hin) as (j & Hj & <-). apply B. lia. }
  (* the draws matter only when sampling *)
  assert (MM : forall a, (a < N)%nat -> (In a idx' <-> In (p a) idx)).
  { destruct (le_lt_dec N bc) as [GE|LT].
    - set (d0 := fun (_ : nat) (pop : list nat) (k : nat) => pop).
      intros a Ha.
      assert (EBd : forall w1 cs d d1, List.length cs = N -> get_balanced_batch knn hnsw w1 cs bc d = get_balanced_batch knn hnsw w1 cs bc d1).
      { intros w1 cs d d1 Lc. unfold get_balanced_batch. destruct (Nat.ltb_spec bc (List.length cs)); [lia|reflexivity]. }
      apply (members_match knn hnsw w w0 N (S r) bc p sg cl classes classes' d0 d0 idx idx' nns nns'); auto; try apply RN.
      + rewrite (EBd w classes d0 draw LC). exact EB.
      + rewrite (EBd w0 classes' d0 draw' LC'). exact EB'.
      + intros cc j j' pop pop' k _ _ _ _ _ _ _ X. exact X.
    - intros a Ha. destruct SD0 as [X|SD]; [lia|].
      apply (members_match knn hnsw w w0 N (S r) bc p sg cl classes classes' draw draw' idx idx' nns nns'); auto; apply RN. }
  pose proof GB as (NDi & LB & HB). pose proof GB' as (NDi' & LB' & HB').
  set (b := List.length idx) in *.
  assert (IB : forall a, In a idx -> (a < N)%nat) by (intros a Ha; destruct (In_nth _ _ O Ha) as (x & Hx & <-); apply HB; auto).
  assert (IB' : forall a, In a idx' -> (a < N)%nat) by (intros a Ha; destruct (In_nth _ _ O Ha) as (x & Hx & <-); apply HB'; auto).
  assert (LE : List.length idx' = b).
  { unfold b. rewrite <- (map_length p idx'). apply Permutation_length. apply NoDup_Permutation; [| exact NDi |].
    - revert IB'. clear -NDi' PM. induction NDi' as [|i l0 NI X IH]; intros B; [constructor|]. cbn [map]. constructor.
      + intros Y. apply in_map_iff in Y as (j & E & Hj). apply NI. apply (proj2 PM) in E; [subst j; exact Hj|apply B; right; exact Hj|apply B; left; reflexivity].
      + apply IH. intros j Hj. apply B. right. exact Hj.
    - intros i. rewrite in_map_iff. split.
      + intros (j & <- & Hj). apply MM; auto.
      + intros Hi'. destruct (perm_inverse N p PM i (IB i Hi')) as (j & Hj & <-). exists j. split; [reflexivity|]. apply MM; auto. }
  rewrite LE in LN', HB'.
  destruct (batch_match N b p idx idx' PM eq_refl LE NDi' IB') as (pi & PI & PE).
  { intros a Ha Hin. apply MM; auto. }
  set (q := fun x j => nth j (nth x nns []) O) in *. set (c := fun i => nth i idx O) in *.
  set (q' := fun x j => nth j (nth x nns' []) O) in *. set (c' := fun i => nth i idx' O) in *.
  assert (HC : forall x, (x < b)%nat -> (c' x < N)%nat /\ c (pi x) = p (c' x)) by (intros x Hx; split; [apply HB'; auto|apply PE; auto]).
  assert (NNS : nns = map (nn_of knn hnsw w) idx) by (destruct (get_balanced_spec knn hnsw _ _ _ _ _ _ EB HD) as (_ & _ & _ & X); exact X).
  assert (NNS' : nns' = map (nn_of knn hnsw w0) idx') by (destruct (get_balanced_spec knn hnsw _ _ _ _ _ _ EB' HD') as (_ & _ & _ & X); exact X).
  assert (HQ : forall x j, (x < b)%nat -> (j < n)%nat -> (q' x j < N)%nat /\ q (pi x) j = p (q' x j)).
  { intros x j Hx Hj. destruct (HB' x Hx) as (B1 & (B2 & _) & _). split; [apply B2; auto|]. pose proof (proj1 PI x Hx) as Hp.
    unfold q, q'. rewrite NNS, NNS', (nth_map _ _ O), (nth_map _ _ O) by (unfold b in *; lia). fold (c (pi x)) (c' x).
    rewrite (proj2 (HC x Hx)), NB by (apply (HC x Hx)). apply nth_map.
    destruct (balanced_sizes knn hnsw _ _ _ _ _ _ EB') as [G1 G2]. rewrite LC' in G1.
    destruct (neighbourhood_others knn hnsw dist Hsk en method kw w0 train' N n (c' x) (nn_of knn hnsw w0 (c' x)) Hm He Hi0 Hn D' DR' B1) as [_ LL]; [|lia].
    apply neighbourhood_iff. auto. }
  assert (NN : forall x i, 0 <= noise_at (full_noise s F) None x i) by (intros; rewrite HN; exact Hv).
  assert (WP : loo_well_posed (full_noise s F) train b n c q).
  { apply (others_well_posed _ train N); auto; intros x Hx; apply HB; auto. }
  assert (SI : shape (index_vector idx) = [b]) by reflexivity.
  assert (SI' : shape (index_vector idx') = [b]) by (cbn; rewrite LE; reflexivity).
  assert (HCi : forall x, (x < b)%nat -> at_ (index_vector idx) [x] = Z.of_nat (c x) /\ (c x < N)%nat).
  { intros x Hx. split; [reflexivity|]. apply HB; auto. }
  assert (HCi' : forall x, (x < b)%nat -> at_ (index_vector idx') [x] = Z.of_nat (c' x) /\ (c' x < N)%nat).
  { intros x Hx. split; [reflexivity|]. apply HB'; auto. }
  assert (IM : index_matrix (index_array n nns) b n N q).
  { split; [cbn; rewrite LN; reflexivity|]. intros x j Hx Hj. split; [reflexivity|]. destruct (HB x Hx) as (_ & (B & _) & _). apply B; auto. }
  assert (IM' : index_matrix (index_array n nns') b n N q').
  { split; [cbn; rewrite LN'; reflexivity|]. intros x j Hx Hj. split; [reflexivity|]. destruct (HB' x Hx) as (_ & (B & _) & _). apply B; auto. }
  destruct (TR b) as (B & (K & L & OK) & _).
  assert (SH : shape labels = [N; S r]) by apply OH. assert (SH' : shape labels' = [N; S r]) by apply OH'.
  assert (FE : feature_count train' = feature_count train) by (unfold feature_count; rewrite S1; reflexivity).
  destruct (class_tensors_ok gamma kv s F K train labels (index_vector idx) (index_array n nns) N b n (S r) c q B L OK D SH SI HCi IM)
    as (t & _ & _ & Et & _).
  assert (OK' : lk_ok K (feature_count train') (reals s) []) by (rewrite FE; exact OK).
  destruct (class_tensors_ok gamma kv s F K train' labels' (index_vector idx') (index_array n nns') N b n (S r) c' q' B L OK' D' SH' SI' HCi' IM')
    as (t' & _ & _ & Et' & _).
  exists (optimize_call ls slogdet eps gamma kv opt s F l [] None draws t).
  unfold train_classifier. rewrite Hi, Hi0. cbn [bind]. rewrite MF. cbn [bind]. rewrite EC, EC'. cbn [bind]. rewrite EB, EB'.
  cbn [bind fst snd]. rewrite Et, Et'. cbn [bind]. split; [reflexivity|]. unfold optimize_call.
  rewrite (VO (obj_fn ls slogdet eps gamma kv s F l [] None draws (tr_pair t') (tr_cross t') (tr_nn_targets t') (tr_targets t'))
              (obj_fn ls slogdet eps gamma kv s F l [] None draws (tr_pair t) (tr_cross t) (tr_nn_targets t) (tr_targets t))); [reflexivity|].
  intros x BX. destruct (objective_moved train train' labels labels1 labels' N (S r) p sg RO RN b n c c' q q' pi PI HC HQ ls EX slogdet eps gamma kv s F l draws
    (index_vector idx) (index_array n nns) (index_vector idx') (index_array n nns') names x0 bounds t t' v0) with (x := x) as (v & O1 & O2); auto; try lia.
  exists v. auto.
Qed.

(** Neighbours of reordered rows, when no row is equally far from two others. *)
Lemma nn_of_moved en method kw w w0 train train' labels labels1 N n ex p :
  lower method = "exact"%string -> euclidean_kw kw -> nn_init en (rows_of train) n method kw = Ok w -> nn_init en (rows_of train') n method kw = Ok w0 ->
  (n + 1 <= N)%nat -> dataset train N -> distinct_rows train N (fun i => i) -> reordered train train' labels labels1 N ex p ->
  (forall a, (a < N)%nat -> no_ties train train N a) -> forall a, (a < N)%nat -> nn_of knn hnsw w (p a) = map p (nn_of knn hnsw w0 a).
Proof.
  intros Hm He Hi Hi0 Hn D DR RO NT a Ha. pose proof RO as (PM & S1 & _). pose proof (proj1 PM a Ha) as Hp.
  assert (D' : dataset train' N) by (unfold dataset; rewrite S1; exact D). pose proof (reordered_distinct _ _ _ _ _ _ _ RO DR) as DR'.
  assert (Q : forall w1 tr i, nn_init en (rows_of tr) n method kw = Ok w1 -> dataset tr N -> distinct_rows tr N (fun i => i) -> (i < N)%nat ->
    nearest_others tr N i n (fun j => nth j (nn_of knn hnsw w1 i) O) /\ List.length (nn_of knn hnsw w1 i) = n).
  { intros w1 tr i H1 D1 DR1 Hii. apply (neighbourhood_others knn hnsw dist Hsk en method kw w1 tr N n i _ Hm He H1 Hn D1 DR1 Hii).
    destruct (nn_init_exact _ _ _ _ _ _ Hm H1) as (rows & Er & ->). rewrite (rows_of_ok _ _ D1) in Er. injection Er as <-.
    apply neighbourhood_iff. cbn [nn_train nn_count]. rewrite map_length, seq_length. auto. }
  destruct (Q w train (p a) Hi D DR Hp) as [A LA]. destruct (Q w0 train' a Hi0 D' DR' Ha) as [B LB].
  apply (nth_ext _ _ O (p O)); [rewrite map_length; lia|]. intros j Hj. rewrite (map_nth p). symmetry.
  apply (others_unique train N (p a) n _ (fun j => p (nth j (nn_of knn hnsw w0 a) O)) Hp DR Hn (NT _ Hp) A); [|lia].
  apply (reordered_others train train' labels labels1 N ex p a n _ RO Ha B).
Qed.

(** classify_any on reordered training rows: the scores of untied test rows are the same. *)
Lemma classify_reordered en method kw w en' method' kw' w' g K cur test train train' labels labels' N M n C p :
  lower method = "exact"%string -> euclidean_kw kw -> nn_init en (rows_of train) n method kw = Ok w ->
  lower method' = "exact"%string -> euclidean_kw kw' -> nn_init en' (rows_of train') n method' kw' = Ok w' -> (0 < n <= N /\ 0 < M)%nat -> S C <> n ->
  dataset test M -> dataset train N -> ndim test = ndim train -> feature_count test = feature_count train ->
  lk_ok K (feature_count train) cur [] -> uniform_noise (gp_noise g) -> sound_noise (gp_noise g) train N M n ->
  shape labels = [N; S C] -> reordered train train' labels labels' N [S C] p ->
  exists out out',
    work_classify_any ls knn hnsw (Univariate (lib_model gamma kv g K cur)) test train w labels = Ok out /\
    work_classify_any ls knn hnsw (Univariate (lib_model gamma kv g K cur)) test train' w' labels' = Ok out' /\
    shape out = [M; S C] /\ shape out' = [M; S C] /\
    forall x c, (x < M)%nat -> (c < S C)%nat -> no_ties test train N x -> at_ out' [x; c] = at_ out [x; c].
Proof.
  intros Hm He Hi Hm' He' Hi' Hn NC D1 D2 ND FC OK UN SN SL RO. pose proof RO as (PM & ST & STT & RR).
  assert (FT : feature_count train' = feature_count train) by (unfold feature_count; rewrite ST; reflexivity).
  assert (D2' : dataset train' N) by (unfold dataset; rewrite ST; exact D2).
  assert (ND' : ndim test = ndim train') by (unfold ndim in *; rewrite ST; exact ND).
  assert (SL' : shape labels' = [N; S C]) by congruence.
  assert (SN' : sound_noise (gp_noise g) train' N M n).
  { destruct SN as [P|[P D]]; [left; auto|right; split; [auto|]]. exact (reordered_distinct _ _ _ _ _ _ _ RO D). }
  destruct (lookup_rows knn hnsw dist Hsk en method kw w test train N M n Hm He Hi Hn D1 D2 FC) as (I1 & DD & EG & CW & IM & NR).
  destruct (lookup_rows knn hnsw dist Hsk en' method' kw' w' test train' N M n Hm' He' Hi' Hn D1 D2' ltac:(congruence)) as (I2 & DD' & EG' & CW' & IM' & NR').
  destruct n as [|n]; [lia|].
  set (q := nbr knn hnsw w test) in *. set (q' := nbr knn hnsw w' test) in *.
  set (k := lk_cov gamma kv K (feature_count train) cur []).
  assert (PK : pointwise_kernel (feature_count train) (lk_call gamma kv K cur []) k) by (apply lk_pointwise; auto).
  assert (NS : forall x, (x < M)%nat -> nonsingular (S n) (nbr_matrix k (gp_noise g) train q x)).
  { apply well_posed_ns; auto. apply (sound_well_posed _ test train N); auto; lia. }
  assert (NS' : forall x, (x < M)%nat -> nonsingular (S n) (nbr_matrix k (gp_noise g) train' q' x)).
  { unfold k. rewrite <- FT. apply well_posed_ns; auto; [rewrite FT; exact OK|]. apply (sound_well_posed _ test train' N); auto; lia. }
  destruct (classify_value _ labels (index_array (S n) I1) N C M n q _ SL IM ltac:(lia)
    (gp_answers ls g (feature_count train) _ k test train labels _ N M (S n) q (S C) _ EX UN PK D1 D2 ND FC eq_refl SL IM NC (fun x Hx _ => NS x Hx))) as (out & E & S1 & V).
  destruct (classify_value _ labels' (index_array (S n) I2) N C M n q' _ SL' IM' ltac:(lia)
    (gp_answers ls g (feature_count train) _ k test train' labels' _ N M (S n) q' (S C) _ EX UN PK D1 D2' ND' FC FT SL' IM' NC (fun x Hx _ => NS' x Hx))) as (out' & E' & S2 & V').
  exists out, out'. split; [unfold work_classify_any; rewrite EG; cbn [bind fst]; rewrite CW; exact E|].
  split; [unfold work_classify_any; rewrite EG'; cbn [bind fst]; rewrite CW'; exact E'|]. split; [exact S1|]. split; [exact S2|].
  intros x c Hx Hc NT.
  assert (QE : forall j, (j < S n)%nat -> q x j = p (q' x j)).
  { apply (nearest_unique test train N x (S n) _ (fun j => p (q' x j)) NT (NR x Hx)).
    apply (reordered_nearest test train train' labels labels' N [S C] p); auto. }
  assert (QB : forall j, (j < S n)%nat -> (q' x j < N)%nat) by (intros j Hj; apply (NR' x Hx); auto).
  assert (LE : forall j e, (j < S n)%nat -> (e < S C)%nat -> at_ labels' [q' x j; e] = at_ labels [q x j; e]).
  { intros j e Hj He2. rewrite QE by auto. apply (proj2 (RR _ (QB j Hj))). apply inb1. exact He2. }
  assert (AG : agree_first labels (S n) q x <-> agree_first labels' (S n) q' x).
  { unfold agree_first. split; intros A j Hj; specialize (A j Hj); rewrite ?LE in * by lia; exact A. }
  assert (DEC : agree_first labels (S n) q x \/ ~ agree_first labels (S n) q x).
  { unfold agree_first. clear. generalize (S n). intros m. induction m as [|m [IH|IH]].
    - left. intros j Hj. lia.
    - destruct (Req_dec (at_ labels [q x m; O]) (at_ labels [q x O; O])) as [A|A].
      + left. intros j Hj. destruct (Nat.eq_dec j m) as [->|]; [exact A|apply IH; lia].
      + right. intros B. apply A, B. lia.
    - right. intros B. apply IH. intros j Hj. apply B. lia. }
  destruct (V x c Hx Hc) as [V1 V2]. destruct (V' x c Hx Hc) as [V1' V2']. destruct DEC as [A|A].
  { rewrite (V1 A), (V1' (proj1 AG A)). apply LE; [lia|exact Hc]. }
  assert (FE : forall j f, (j < S n)%nat -> (f < feature_count train)%nat -> feature train (q x j) f = feature train' (q' x j) f).
  { intros j f Hj Hf. rewrite QE by auto. symmetry. apply (proj1 (RR _ (QB j Hj))). auto. }
  assert (KE : forall j, (j < S n)%nat -> kcov k test train' x (q' x j) = kcov k test train x (q x j)).
  { intros j Hj. unfold kcov. apply (proj1 PK). intros f Hf. rewrite FE by auto. reflexivity. }
  assert (AE : forall i j, (i < S n)%nat -> (j < S n)%nat -> nbr_matrix k (gp_noise g) train' q' x i j = nbr_matrix k (gp_noise g) train q x i j).
  { intros i j Hi1 Hj1. unfold nbr_matrix, plus_diag. f_equal. unfold kcov. apply (proj1 PK). intros f Hf. rewrite !FE by auto. reflexivity. }
  refine (kriging_det (S n) _ _ _ _ _ _ _ _ (NS' x Hx) AE KE _ (V2' ltac:(tauto)) (V2 A)). intros j Hj. cbn beta. apply LE; auto.
Qed.

(** The same with a trained model. *)
Lemma full_classify_lk s F K test train w labels : f_bound F = model_make s (f_attr F) -> full_lib s F = Some K ->
  work_classify_any ls knn hnsw (Univariate (full_mm gamma kv s F)) test train w labels =
  work_classify_any ls knn hnsw (Univariate (lib_model gamma kv (gp_bound s F) K (reals s))) test train w labels.
Proof.
  intros B L. unfold work_classify_any. destruct (get_nns knn hnsw w (rows_of test)) as [g|]; cbn [bind]; [|reflexivity].
  unfold classify_any. destruct (shape labels) as [|a [|b [|c l]]]; auto.
  destruct (a =? 0)%nat; auto. destruct (b =? 0)%nat; auto. destruct (take labels (index_array (nn_count w) (fst g))) as [Lt|]; cbn [bind]; auto.
  destruct (shape Lt) as [|t [|u [|z l]]]; auto. destruct ((u =? 0) && negb (t =? 0))%nat%bool; auto.
  destruct (List.length (where_ t (nonconstant u Lt)) =? 0)%nat; auto.
  rewrite (mean_indices_ext ls (full_mm gamma kv s F) (lib_model gamma kv (gp_bound s F) K (reals s))); [reflexivity|reflexivity|].
  intros d. cbn [full_mm mm_kernel lib_model]. apply full_kernel_lk; auto.
Qed.
End Do.
