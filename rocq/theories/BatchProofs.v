(** A reference neighbour search meeting the contract, and the batch functions. *)
From Coq Require Import Lia Lra Sorted Permutation.
From Verif Require Import Base BaseFacts NeighborsModel NeighborsSpec NeighborsProofs.
Local Open Scope R_scope.
Local Open Scope string_scope.

(** ** Reference search: sort all points by distance *)
Fixpoint ins (e : nat * R) (l : list (nat * R)) : list (nat * R) :=
  match l with
  | [] => [e]
  | x :: l' => if Rle_dec (snd e) (snd x) then e :: l else x :: ins e l'
  end.
Definition isort (l : list (nat * R)) : list (nat * R) := fold_right ins [] l.

Lemma ins_perm e l : Permutation (ins e l) (e :: l).
Proof.
  induction l as [|x l IH]; cbn [ins]; [reflexivity|].
  destruct (Rle_dec (snd e) (snd x)); [reflexivity|]. rewrite IH. apply perm_swap.
Qed.
Lemma isort_perm l : Permutation (isort l) l.
Proof. induction l as [|x l IH]; cbn; [reflexivity|]. rewrite ins_perm, IH. reflexivity. Qed.

Lemma ins_sorted e l : StronglySorted (fun a b => snd a <= snd b) l ->
  StronglySorted (fun a b => snd a <= snd b) (ins e l).
Proof.
  induction 1 as [|x l HS IH HF]; cbn [ins]; [repeat constructor|].
  destruct (Rle_dec (snd e) (snd x)) as [Hle|Hgt].
  - constructor; [constructor; assumption|]. constructor; [assumption|].
    eapply Forall_impl; [|exact HF]. cbn. intros; lra.
  - constructor; [assumption|]. apply Forall_forall. intros y Hy.
    apply (Permutation_in _ (ins_perm e l)) in Hy. destruct Hy as [<-|Hy]; [lra|].
    rewrite Forall_forall in HF. auto.
Qed.
Lemma isort_sorted l : StronglySorted (fun a b => snd a <= snd b) (isort l).
Proof. induction l; cbn; [constructor|]. apply ins_sorted. assumption. Qed.

Definition ref_dist (x y : point) : R := sqrt (sq_dist x y).
Definition ref_all (train : list point) (q : point) : list (nat * R) :=
  map (fun i => (i, ref_dist q (nth i train []))) (seq 0 (List.length train)).
Definition ref_knn (ctor : dict nnval) (train : list point) (q : point) (k : nat) : list (nat * R) :=
  firstn k (isort (ref_all train q)).

Lemma sorted_app_le {A} (P : A -> A -> Prop) l1 l2 : StronglySorted P (l1 ++ l2) ->
  StronglySorted P l1 /\ forall a b, In a l1 -> In b l2 -> P a b.
Proof.
  induction l1 as [|x l1 IH]; cbn; intros H; [split; [constructor|intros ? ? []]|].
  inversion H as [|? ? HS HF]; subst. destruct (IH HS) as [H1 H2]. rewrite Forall_app in HF.
  split; [constructor; tauto|]. intros a b [<-|Ha] Hb; [|auto].
  destruct HF as [_ HF]. rewrite Forall_forall in HF. auto.
Qed.

Lemma ref_ok : sklearn_ok ref_knn (fun _ => ref_dist).
Proof.
  split; [|reflexivity]. intros ctor train q k Hk. unfold ref_knn.
  set (A := ref_all train q). set (L := isort A).
  assert (PL : Permutation L A) by apply isort_perm.
  assert (MA : map fst A = seq 0 (List.length train)) by (unfold A, ref_all; rewrite map_map, map_id; reflexivity).
  assert (LA : List.length A = List.length train) by (unfold A, ref_all; rewrite map_length, seq_length; reflexivity).
  assert (IA : forall i x, In (i, x) A <-> (i < List.length train)%nat /\ x = ref_dist q (nth i train [])).
  { intros i x. unfold A, ref_all. rewrite in_map_iff. split.
    - intros [j [E Hj]]. injection E as <- <-. apply in_seq in Hj. split; [exact (proj2 Hj)|reflexivity].
    - intros [Hi ->]. exists i. split; [reflexivity|]. apply in_seq. split; [lia|exact Hi]. }
  assert (NDL : NoDup (map fst L)).
  { apply (Permutation_NoDup (l := map fst A)); [apply Permutation_map, Permutation_sym, PL|].
    rewrite MA. apply seq_NoDup. }
  assert (SL : StronglySorted (fun a b => snd a <= snd b) (firstn k L ++ skipn k L))
    by (rewrite firstn_skipn; apply isort_sorted).
  destruct (sorted_app_le _ _ _ SL) as [S1 S2].
  unfold nearest. split; [|split; [|split; [|split]]].
  - rewrite firstn_length, (Permutation_length PL), LA. lia.
  - rewrite <- (firstn_skipn k L), map_app in NDL. clear - NDL.
    induction (map fst (firstn k L)) as [|a l IH]; cbn in *; [constructor|]. inversion NDL; subst.
    constructor; [|auto]. intros C. apply H1. apply in_app_iff. auto.
  - intros i x Hin. assert (H : In (i, x) A).
    { apply (Permutation_in _ PL). rewrite <- (firstn_skipn k L). apply in_app_iff. auto. }
    apply IA in H. tauto.
  - exact S1.
  - intros i j x Hi _ Hn Hin.
    assert (H : In (i, ref_dist q (nth i train [])) L).
    { apply (Permutation_in _ (Permutation_sym PL)). apply IA. auto. }
    rewrite <- (firstn_skipn k L) in H. apply in_app_iff in H. destruct H as [H|H].
    + exfalso. apply Hn. apply in_map_iff. eexists. split; [|exact H]. reflexivity.
    + exact (S2 _ _ Hin H).
Qed.

(** ** sample_batch *)
Section B.
Variable knn : dict nnval -> list point -> point -> nat -> list (nat * R).
Variable hnsw : nnval -> list point -> point -> nat -> list (nat * R).

Lemma sample_batch_spec w batch_count train_count drawn idx nns :
  valid_choice (seq 0 train_count) batch_count drawn \/ (train_count <= batch_count)%nat ->
  sample_batch knn hnsw w batch_count train_count drawn = Ok (idx, nns) ->
  NoDup idx /\ (forall i, In i idx -> (i < train_count)%nat) /\
  List.length idx = Nat.min batch_count train_count /\
  ((train_count <= batch_count)%nat -> idx = seq 0 train_count) /\
  exists D, get_batch_nns knn hnsw w idx = Ok (nns, D).
Proof.
  intros Hv H. unfold sample_batch in H.
  destruct (Nat.ltb_spec batch_count train_count) as [Hlt|Hge].
  - destruct (get_batch_nns knn hnsw w drawn) as [[I D]|] eqn:E; cbn [bind fst] in H; [|discriminate].
    injection H as <- <-. destruct Hv as [[HL [ND HI]]|Hv]; [|lia].
    split; [assumption|]. split; [intros i Hi; specialize (HI i Hi); apply in_seq in HI; lia|].
    split; [lia|]. split; [lia|]. eauto.
  - destruct (get_batch_nns knn hnsw w (seq 0 train_count)) as [[I D]|] eqn:E; cbn [bind fst] in H; [|discriminate].
    injection H as <- <-. split; [apply seq_NoDup|]. split; [intros i Hi; apply in_seq in Hi; lia|].
    split; [rewrite seq_length; lia|]. split; [reflexivity|]. eauto.
Qed.

Lemma sample_batch_total w batch_count drawn :
  valid_choice (seq 0 (List.length (nn_train w))) batch_count drawn \/
    (List.length (nn_train w) <= batch_count)%nat ->
  (nn_count w + 1 <= List.length (nn_train w))%nat -> (1 <= batch_count)%nat ->
  exists idx nns, sample_batch knn hnsw w batch_count (List.length (nn_train w)) drawn = Ok (idx, nns).
Proof.
  intros Hv Hn Hb. unfold sample_batch.
  destruct (Nat.ltb_spec batch_count (List.length (nn_train w))) as [Hlt|Hge].
  - destruct Hv as [[HL [_ HI]]|Hv]; [|lia].
    rewrite get_batch_nns_rows; [cbn [bind fst]; eauto|assumption|intros ->; cbn in HL; lia|].
    intros i Hi. specialize (HI i Hi). apply in_seq in HI. lia.
  - rewrite get_batch_nns_rows; [cbn [bind fst]; eauto|assumption| |].
    { intros E. apply (f_equal (@List.length nat)) in E. rewrite seq_length in E. cbn in E. lia. }
    intros i Hi. apply in_seq in Hi. lia.
Qed.

(** ** Nonconstant mask *)
Lemma Int_part_IZR z : Int_part (IZR z) = z.
Proof.
  destruct (base_Int_part (IZR z)) as [H1 H2]. apply le_IZR in H1.
  assert (H : IZR (Int_part (IZR z) - z) > -1) by (rewrite minus_IZR; lra).
  change (-1) with (IZR (-1)) in H. apply Rgt_lt, lt_IZR in H. lia.
Qed.
Lemma trunc_IZR z : trunc (IZR z) = z.
Proof.
  unfold trunc. destruct (Rle_dec 0 (IZR z)).
  - apply Int_part_IZR.
  - rewrite <- opp_IZR, Int_part_IZR. lia.
Qed.

Lemma fold_max_ge l : forall a, (a <= fold_left Z.max l a)%Z /\ forall x, In x l -> (x <= fold_left Z.max l a)%Z.
Proof.
  induction l as [|b l IH]; intros a; cbn [fold_left]; [split; [lia|intros ? []]|].
  destruct (IH (Z.max a b)) as [H1 H2]. split; [lia|]. intros x [<-|Hx]; [lia|auto].
Qed.
Lemma fold_min_le l : forall a, (fold_left Z.min l a <= a)%Z /\ forall x, In x l -> (fold_left Z.min l a <= x)%Z.
Proof.
  induction l as [|b l IH]; intros a; cbn [fold_left]; [split; [lia|intros ? []]|].
  destruct (IH (Z.min a b)) as [H1 H2]. split; [lia|]. intros x [<-|Hx]; [lia|auto].
Qed.
Lemma fold_max_in l : forall a, In (fold_left Z.max l a) (a :: l).
Proof.
  induction l as [|b l IH]; intros a; cbn [fold_left]; [left; reflexivity|].
  destruct (IH (Z.max a b)) as [E|H]; [|right; right; assumption].
  rewrite <- E. destruct (Z.max_spec a b) as [[_ ->]|[_ ->]]; [right; left|left]; reflexivity.
Qed.
Lemma fold_min_in l : forall a, In (fold_left Z.min l a) (a :: l).
Proof.
  induction l as [|b l IH]; intros a; cbn [fold_left]; [left; reflexivity|].
  destruct (IH (Z.min a b)) as [E|H]; [|right; right; assumption].
  rewrite <- E. destruct (Z.min_spec a b) as [[_ ->]|[_ ->]]; [left|right; left]; reflexivity.
Qed.

Lemma nonconstant_row_true labels nn : nonconstant_row labels nn = Ok true -> mixed labels nn.
Proof.
  unfold nonconstant_row. destruct (forallb _ nn); [|discriminate].
  destruct nn as [|i nn]; [discriminate|]. cbn [map zmax zmin]. set (f := fun i => trunc (nth i labels 0)). change (trunc (nth i labels 0)) with (f i).
  intros H. injection H as H. apply negb_true_iff, Z.eqb_neq in H.
  pose proof (fold_max_in (map f nn) (f i)) as M1. pose proof (fold_min_in (map f nn) (f i)) as M2.
  change (f i :: map f nn) with (map f (i :: nn)) in M1, M2.
  apply in_map_iff in M1. apply in_map_iff in M2.
  destruct M1 as [a [Ea Ha]]. destruct M2 as [b [Eb Hb]]. exists a, b. split; [assumption|]. split; [assumption|].
  intros C. apply H. rewrite <- Ea, <- Eb. unfold f. rewrite C. reflexivity.
Qed.

Lemma nonconstant_row_false labels nn : integral labels -> nonconstant_row labels nn = Ok false ->
  ~ mixed labels nn.
Proof.
  intros HI. unfold nonconstant_row. destruct (forallb _ nn) eqn:F; [|discriminate].
  destruct nn as [|i nn]; [discriminate|]. cbn [map zmax zmin]. set (f := fun i => trunc (nth i labels 0)). change (trunc (nth i labels 0)) with (f i).
  intros H. injection H as H. apply negb_false_iff, Z.eqb_eq in H.
  intros [a [b [Ha [Hb Hne]]]]. apply Hne.
  assert (G : forall x, In x (i :: nn) -> f x = fold_left Z.max (map f nn) (f i)).
  { intros x Hx. destruct (fold_max_ge (map f nn) (f i)) as [A1 A2]. destruct (fold_min_le (map f nn) (f i)) as [B1 B2].
    destruct Hx as [<-|Hx]; [lia|]. specialize (A2 (f x) (in_map f _ _ Hx)). specialize (B2 (f x) (in_map f _ _ Hx)). lia. }
  assert (Q : forall x, In x (i :: nn) -> nth x labels 0 = IZR (f x)).
  { intros x Hx. rewrite forallb_forall in F. specialize (F x Hx). apply Nat.ltb_lt in F.
    destruct (HI (nth x labels 0)) as [z Ez]; [apply nth_In; assumption|]. unfold f. rewrite Ez, trunc_IZR. reflexivity. }
  rewrite (Q a Ha), (Q b Hb), (G a Ha), (G b Hb). reflexivity.
Qed.

(** ** sequence and select *)
Lemma sequence_nth {A} (l : list (result A)) : forall r d, sequence l = Ok r ->
  List.length r = List.length l /\ forall i, (i < List.length l)%nat -> nth i l (Err ValueError) = Ok (nth i r d).
Proof.
  induction l as [|x l IH]; intros r d H; cbn [sequence] in H.
  - injection H as <-. split; [reflexivity|]. cbn; lia.
  - destruct x as [a|]; cbn [bind] in H; [|discriminate].
    destruct (sequence l) as [r'|]; cbn [bind] in H; [|discriminate]. injection H as <-.
    destruct (IH r' d eq_refl) as [H1 H2]. split; [cbn; lia|]. intros [|i] Hi; [reflexivity|].
    cbn. apply H2. cbn in Hi. lia.
Qed.

Lemma mask_nth labels nns mask i d : sequence (map (nonconstant_row labels) nns) = Ok mask ->
  (i < List.length nns)%nat -> nonconstant_row labels (nth i nns d) = Ok (nth i mask false).
Proof.
  intros H Hi. destruct (sequence_nth _ _ false H) as [HL HN]. rewrite map_length in *.
  specialize (HN i Hi). rewrite <- HN. symmetry. apply nth_map. assumption.
Qed.

Lemma select_map {A B} (f : A -> B) mask l : select mask (map f l) = map f (select mask l).
Proof.
  unfold select. revert mask. induction l as [|x l IH]; intros [|b mask]; cbn; auto.
  destruct b; cbn; rewrite IH; reflexivity.
Qed.

Lemma select_seq_from mask : forall a n, List.length mask = n ->
  select mask (seq a n) = filter (fun i => nth (i - a) mask false) (seq a n).
Proof.
  unfold select. induction mask as [|b mask IH]; intros a n HL; cbn in HL; subst; [reflexivity|].
  set (f := fun i => nth (i - a) (b :: mask) false).
  assert (E : filter f (seq (S a) (List.length mask)) =
              filter (fun i => nth (i - S a) mask false) (seq (S a) (List.length mask))).
  { apply filter_ext_in. intros i Hi. apply in_seq in Hi. unfold f.
    replace (i - a)%nat with (S (i - S a)) by lia. reflexivity. }
  assert (Fa : f a = b) by (unfold f; rewrite Nat.sub_diag; reflexivity).
  change (seq a (S (List.length mask))) with (a :: seq (S a) (List.length mask)).
  cbn [combine filter fst]. rewrite Fa, E.
  destruct b; cbn [map snd]; rewrite IH by reflexivity; reflexivity.
Qed.

Lemma select_seq mask n : List.length mask = n ->
  select mask (seq 0 n) = filter (fun i => nth i mask false) (seq 0 n).
Proof.
  intros H. rewrite (select_seq_from mask 0 n H). apply filter_ext. intros i. rewrite Nat.sub_0_r. reflexivity.
Qed.

(** The neighbourhoods the batch functions look at. *)
Definition nn_of (w : nn_wrapper) (i : nat) : list nat :=
  tl (map fst (query_row knn hnsw w (nth i (nn_train w) []) (nn_count w + 1))).

Lemma batch_nns_all w idx nns D : get_batch_nns knn hnsw w idx = Ok (nns, D) ->
  nns = map (nn_of w) idx.
Proof.
  intros H. destruct (get_batch_nns_inv knn hnsw w idx nns D H) as [H1 H2].
  destruct idx as [|i idx].
  { cbn [get_batch_nns forallb map] in H. unfold get_batch_nns in H. cbn [forallb map] in H.
    unfold get_nns_k in H. destruct (_ || _); [discriminate|]. cbn [map bind fst snd] in H. injection H as <- _. reflexivity. }
  rewrite get_batch_nns_rows in H; [|assumption|discriminate|assumption]. injection H as <- _. reflexivity.
Qed.

Lemma full_filtered_spec w labels idx nns : full_filtered_batch knn hnsw w labels = Ok (idx, nns) ->
  NoDup idx /\ (forall i, In i idx -> (i < List.length labels)%nat /\ mixed labels (nn_of w i)) /\
  (integral labels -> forall i, (i < List.length labels)%nat -> mixed labels (nn_of w i) -> In i idx) /\
  nns = map (nn_of w) idx.
Proof.
  unfold full_filtered_batch. set (n := List.length labels).
  destruct (get_batch_nns knn hnsw w (seq 0 n)) as [[I D]|] eqn:E; cbn [bind fst]; [|discriminate].
  destruct (sequence (map (nonconstant_row labels) I)) as [mask|] eqn:EM; cbn [bind]; [|discriminate].
  intros H. injection H as <- <-. apply batch_nns_all in E. subst I.
  destruct (sequence_nth _ _ false EM) as [HL _]. rewrite !map_length, seq_length in HL.
  rewrite select_map, (select_seq mask n HL).
  assert (MN : forall i, (i < n)%nat -> nonconstant_row labels (nn_of w i) = Ok (nth i mask false)).
  { intros i Hi. rewrite <- (mask_nth labels _ mask i [] EM) by (rewrite map_length, seq_length; assumption).
    rewrite (nth_map (nn_of w) _ O) by (rewrite seq_length; assumption). rewrite seq_nth by assumption. reflexivity. }
  split; [apply NoDup_filter, seq_NoDup|]. split; [|split].
  - intros i Hi. apply filter_In in Hi. destruct Hi as [Hi Hm]. apply in_seq in Hi.
    split; [unfold n in *; lia|]. apply nonconstant_row_true. rewrite MN by lia. rewrite Hm. reflexivity.
  - intros HI i Hi Hx. apply filter_In. split; [apply in_seq; lia|].
    destruct (nth i mask false) eqn:Em; [reflexivity|exfalso].
    apply (nonconstant_row_false labels (nn_of w i) HI); [|assumption]. rewrite MN by assumption. rewrite Em. reflexivity.
  - reflexivity.
Qed.

(** ** unique *)
Lemma Reqb_eq a b : Reqb a b = true <-> a = b.
Proof. unfold Reqb. destruct (Req_EM_T a b); split; auto; discriminate. Qed.

Lemma insert_uniq_in x l y : In y (insert_uniq x l) <-> y = x \/ In y l.
Proof.
  induction l as [|z l IH]; cbn [insert_uniq]; [cbn; intuition|].
  destruct (Reqb x z) eqn:E; [apply Reqb_eq in E; subst; cbn; intuition|].
  destruct (Rltb x z); cbn; [intuition|]. rewrite IH. intuition.
Qed.
Lemma unique_in l y : In y (unique l) <-> In y l.
Proof. induction l as [|x l IH]; cbn; [tauto|]. rewrite insert_uniq_in, IH. intuition. Qed.

Lemma insert_uniq_sorted x l : StronglySorted Rlt l -> StronglySorted Rlt (insert_uniq x l).
Proof.
  induction 1 as [|z l HS IH HF]; cbn [insert_uniq]; [repeat constructor|].
  destruct (Reqb x z) eqn:E; [constructor; assumption|].
  unfold Rltb. destruct (Rlt_dec x z) as [Hlt|Hge].
  - constructor; [constructor; assumption|]. constructor; [assumption|].
    eapply Forall_impl; [|exact HF]. cbn. intros; lra.
  - constructor; [assumption|]. apply Forall_forall. intros y Hy. apply insert_uniq_in in Hy.
    destruct Hy as [->|Hy]; [|rewrite Forall_forall in HF; auto].
    assert (x <> z) by (intros ->; rewrite (proj2 (Reqb_eq z z) eq_refl) in E; discriminate). lra.
Qed.
Lemma unique_sorted l : StronglySorted Rlt (unique l).
Proof. induction l; cbn; [constructor|]. apply insert_uniq_sorted. assumption. Qed.
Lemma unique_nodup l : NoDup (unique l).
Proof.
  pose proof (unique_sorted l) as H. induction H as [|x u HS IH HF]; [constructor|].
  constructor; [|assumption]. intros C. rewrite Forall_forall in HF. specialize (HF x C). lra.
Qed.

(** ** sample_balanced_batch *)
Lemma class_count_app labels c l1 l2 :
  class_count labels c (l1 ++ l2) = (class_count labels c l1 + class_count labels c l2)%nat.
Proof.
  unfold class_count. induction l1 as [|a l1 IH]; cbn; [reflexivity|].
  destruct (Reqb (nth a labels 0) c); cbn; rewrite IH; reflexivity.
Qed.

Lemma class_count_all labels c l : (forall i, In i l -> nth i labels 0 = c) ->
  class_count labels c l = List.length l.
Proof.
  unfold class_count. induction l as [|a l IH]; intros H; cbn [filter List.length]; [reflexivity|].
  rewrite (proj2 (Reqb_eq _ _) (H a (or_introl eq_refl))). cbn [List.length]. f_equal.
  apply IH. intros i Hi. apply H. right. assumption.
Qed.
Lemma class_count_none labels c l : (forall i, In i l -> nth i labels 0 <> c) ->
  class_count labels c l = O.
Proof.
  unfold class_count. induction l as [|a l IH]; intros H; cbn; [reflexivity|].
  destruct (Reqb (nth a labels 0) c) eqn:E; [apply Reqb_eq in E; exfalso; apply (H a); [left; reflexivity|assumption]|].
  apply IH. intros i Hi. apply H. right. assumption.
Qed.

(** Draws from pairwise disjoint class pools. *)
Lemma flat_draws labels (classes : list R) (pool : R -> list nat) (num : R -> nat)
  (draw : nat -> list nat -> nat -> list nat) :
  NoDup classes ->
  (forall c i, In i (pool c) -> nth i labels 0 = c) ->
  (forall j, (j < List.length classes)%nat ->
     valid_choice (pool (nth j classes 0)) (num (nth j classes 0)) (draw j (pool (nth j classes 0)) (num (nth j classes 0)))) ->
  forall k, (k <= List.length classes)%nat ->
  let chosen := flat_map (fun j => draw j (pool (nth j classes 0)) (num (nth j classes 0))) (seq 0 k) in
  NoDup chosen /\
  (forall i, In i chosen -> exists j, (j < k)%nat /\ In i (pool (nth j classes 0))) /\
  (forall j, (j < List.length classes)%nat -> class_count labels (nth j classes 0) chosen =
     if (j <? k)%nat then num (nth j classes 0) else O).
Proof.
  intros NDc HP HD. induction k as [|k IH]; intros Hk chosen.
  - subst chosen. cbn. split; [constructor|]. split; [intros i []|]. reflexivity.
  - destruct (IH ltac:(lia)) as [N [I C]]. clear IH. subst chosen. rewrite seq_S, flat_map_app. cbn [flat_map Nat.add].
    rewrite app_nil_r.
    set (L := flat_map (fun j => draw j (pool (nth j classes 0)) (num (nth j classes 0))) (seq 0 k)) in *.
    destruct (HD k ltac:(lia)) as [DL [DN DI]].
    set (dr := draw k (pool (nth k classes 0)) (num (nth k classes 0))) in *.
    assert (Hdr : forall i, In i dr -> nth i labels 0 = nth k classes 0) by (intros i Hi; apply HP, DI, Hi).
    assert (HLn : forall i, In i L -> nth i labels 0 <> nth k classes 0).
    { intros i Hi E. destruct (I i Hi) as [j [Hj Hp]]. apply HP in Hp. rewrite E in Hp.
      assert (k = j); [|lia]. apply (NoDup_nth classes 0); auto; lia. }
    split; [|split].
    + clear - N DN Hdr HLn. induction L as [|a L IH]; cbn; [assumption|]. inversion N; subst.
      constructor; [|apply IH; auto; intros; apply HLn; right; assumption].
      intros C. apply in_app_iff in C. destruct C as [C|C]; [contradiction|].
      apply (HLn a (or_introl eq_refl)). auto.
    + intros i Hi. apply in_app_iff in Hi. destruct Hi as [Hi|Hi].
      * destruct (I i Hi) as [j [Hj Hp]]. exists j. split; [lia|assumption].
      * exists k. split; [lia|]. apply DI. assumption.
    + intros j Hj. rewrite class_count_app, (C j Hj).
      destruct (Nat.eq_dec j k) as [->|Hne].
      * rewrite Nat.ltb_irrefl. assert (E : (k <? S k)%nat = true) by (apply Nat.ltb_lt; lia). rewrite E.
        rewrite class_count_all by assumption. rewrite DL. lia.
      * assert (E : (j <? S k)%nat = (j <? k)%nat).
        { destruct (Nat.ltb_spec j k), (Nat.ltb_spec j (S k)); lia || reflexivity. }
        rewrite E, (class_count_none labels (nth j classes 0) dr); [lia|].
        intros i Hi Ei. apply Hne. rewrite (Hdr i Hi) in Ei. symmetry. apply (NoDup_nth classes 0); auto; lia.
Qed.

Lemma balanced_spec w labels batch_count draw idx nns :
  sample_balanced_batch knn hnsw w labels batch_count draw = Ok (idx, nns) ->
  (forall j pop n, (n <= List.length pop)%nat -> NoDup pop -> valid_choice pop n (draw j pop n)) ->
  NoDup idx /\ (forall i, In i idx -> (i < List.length labels)%nat /\ mixed labels (nn_of w i)) /\
  (integral labels -> forall c, In c labels -> forall cand,
     NoDup cand -> (forall i, In i cand <-> (i < List.length labels)%nat /\ nth i labels 0 = c /\ mixed labels (nn_of w i)) ->
     class_count labels c idx = Nat.min (List.length cand) (batch_count / List.length (nodup Req_EM_T labels))) /\
  nns = map (nn_of w) idx.
Proof.
  intros H HD. unfold sample_balanced_batch in H. set (n := List.length labels) in *.
  destruct (get_batch_nns knn hnsw w (seq 0 n)) as [[I D]|] eqn:E; cbn [bind fst] in H; [|discriminate].
  destruct (sequence (map (nonconstant_row labels) I)) as [mask|] eqn:EM; cbn [bind] in H; [|discriminate].
  destruct (List.length (unique labels) =? 0)%nat eqn:EC; [discriminate|]. apply Nat.eqb_neq in EC.
  set (each := (batch_count / List.length (unique labels))%nat) in *.
  injection H as EI EN. apply batch_nns_all in E. subst I.
  destruct (sequence_nth _ _ false EM) as [HL _]. rewrite !map_length, seq_length in HL.
  assert (MN : forall i, (i < n)%nat -> nonconstant_row labels (nn_of w i) = Ok (nth i mask false)).
  { intros i Hi. rewrite <- (mask_nth labels _ mask i [] EM) by (rewrite map_length, seq_length; assumption).
    rewrite (nth_map (nn_of w) _ O) by (rewrite seq_length; assumption). rewrite seq_nth by assumption. reflexivity. }
  set (pool := candidates mask labels) in *.
  set (num := fun c => Nat.min (List.length (pool c)) each).
  assert (PI : forall c i, In i (pool c) <-> (i < n)%nat /\ nth i mask false = true /\ nth i labels 0 = c).
  { intros c i. unfold pool, candidates. rewrite filter_In, in_seq, andb_true_iff, Reqb_eq. fold n. intuition lia. }
  assert (PN : forall c, NoDup (pool c)) by (intros; apply NoDup_filter, seq_NoDup).
  destruct (flat_draws labels (unique labels) pool num draw (unique_nodup labels)) with (k := List.length (unique labels))
    as [N [Iin C]].
  - intros c i Hi. apply PI in Hi. tauto.
  - intros j Hj. apply HD; [unfold num; lia|apply PN].
  - lia.
  - cbv zeta in N, Iin, C.
    change (flat_map (fun j => draw j (pool (nth j (unique labels) 0)) (num (nth j (unique labels) 0)))
              (seq 0 (List.length (unique labels)))) with
           (flat_map (fun j => draw j (pool (nth j (unique labels) 0)) (Nat.min (List.length (pool (nth j (unique labels) 0))) each))
              (seq 0 (List.length (unique labels)))) in N, Iin, C.
    rewrite EI in N, Iin, C.
    assert (MX : forall i, In i idx -> (i < n)%nat /\ mixed labels (nn_of w i)).
    { intros i Hi. destruct (Iin i Hi) as [j [_ Hp]]. apply PI in Hp. destruct Hp as [H1 [H2 _]].
      split; [assumption|]. apply nonconstant_row_true. rewrite MN by assumption. rewrite H2. reflexivity. }
    split; [assumption|]. split; [exact MX|]. split.
    + intros HI c Hc cand NDc Hcand. apply unique_in in Hc. destruct (In_nth _ _ 0 Hc) as [j [Hj Ej]].
      specialize (C j Hj). assert (Lt : (j <? List.length (unique labels))%nat = true) by (apply Nat.ltb_lt; assumption).
      rewrite Lt, Ej in C. rewrite C. unfold num.
      assert (EL : List.length (pool c) = List.length cand).
      { apply Permutation_length. apply NoDup_Permutation; [apply PN|assumption|]. intros i. rewrite PI, Hcand.
        split.
        - intros [H1 [H2 H3]]. split; [assumption|]. split; [assumption|]. apply nonconstant_row_true.
          rewrite MN by assumption. rewrite H2. reflexivity.
        - intros [H1 [H2 H3]]. split; [assumption|]. split; [|assumption].
          destruct (nth i mask false) eqn:Em; [reflexivity|exfalso].
          apply (nonconstant_row_false labels (nn_of w i) HI); [|assumption]. rewrite MN by assumption. rewrite Em. reflexivity. }
      assert (EU : List.length (unique labels) = List.length (nodup Req_EM_T labels)).
      { apply Permutation_length. apply NoDup_Permutation; [apply unique_nodup|apply NoDup_nodup|].
        intros x. rewrite unique_in, nodup_In. reflexivity. }
      rewrite EL. unfold each. rewrite EU. reflexivity.
    + rewrite <- EN, EI. apply map_ext_in. intros i Hi. destruct (MX i Hi) as [Hn _].
      rewrite (nth_map (nn_of w) _ O) by (rewrite seq_length; assumption). rewrite seq_nth by assumption. reflexivity.
Qed.

(** Not more than requested. *)
Lemma balanced_size w labels batch_count draw idx nns :
  sample_balanced_batch knn hnsw w labels batch_count draw = Ok (idx, nns) ->
  (forall j pop n, (n <= List.length pop)%nat -> NoDup pop -> valid_choice pop n (draw j pop n)) ->
  (List.length idx <= batch_count)%nat.
Proof.
  intros H HD. unfold sample_balanced_batch in H. set (n := List.length labels) in *.
  destruct (get_batch_nns knn hnsw w (seq 0 n)) as [[I D]|] eqn:E; cbn [bind fst] in H; [|discriminate].
  destruct (sequence (map (nonconstant_row labels) I)) as [mask|] eqn:EM; cbn [bind] in H; [|discriminate].
  destruct (List.length (unique labels) =? 0)%nat eqn:EC; [discriminate|]. apply Nat.eqb_neq in EC.
  set (each := (batch_count / List.length (unique labels))%nat) in *.
  injection H as EI EN. rewrite <- EI.
  assert (G : forall k, (List.length (flat_map (fun j => draw j (candidates mask labels (nth j (unique labels) 0%R))
     (Nat.min (List.length (candidates mask labels (nth j (unique labels) 0%R))) each)) (seq 0 k)) <= k * each)%nat).
  { induction k as [|k IH]; [cbn; lia|]. rewrite seq_S, flat_map_app, app_length. cbn [flat_map]. rewrite app_nil_r.
    destruct (HD (0 + k)%nat (candidates mask labels (nth (0 + k) (unique labels) 0%R))
      (Nat.min (List.length (candidates mask labels (nth (0 + k) (unique labels) 0%R))) each)) as [DL _];
      [lia|apply NoDup_filter, seq_NoDup|]. rewrite DL. lia. }
  etransitivity; [apply G|]. unfold each. rewrite Nat.mul_comm. rewrite Nat.mul_comm. apply Nat.mul_div_le. assumption.
Qed.

Lemma get_balanced_spec w labels batch_count draw idx nns :
  get_balanced_batch knn hnsw w labels batch_count draw = Ok (idx, nns) ->
  (forall j pop n, (n <= List.length pop)%nat -> NoDup pop -> valid_choice pop n (draw j pop n)) ->
  NoDup idx /\ (forall i, In i idx -> (i < List.length labels)%nat /\ mixed labels (nn_of w i)) /\
  (List.length idx <= batch_count)%nat /\ nns = map (nn_of w) idx.
Proof.
  intros H HD. unfold get_balanced_batch in H.
  destruct (Nat.ltb_spec batch_count (List.length labels)) as [Hlt|Hge].
  - pose proof (balanced_size _ _ _ _ _ _ H HD) as HS. destruct (balanced_spec _ _ _ _ _ _ H HD) as [B1 [B2 [_ B3]]].
    split; [exact B1|]. split; [exact B2|]. split; [exact HS|exact B3].
  - destruct (full_filtered_spec _ _ _ _ H) as [B1 [B2 [_ B3]]].
    split; [exact B1|]. split; [exact B2|]. split; [|exact B3].
    assert (Q : (List.length idx <= List.length (seq 0 (List.length labels)))%nat).
    { apply NoDup_incl_length; [assumption|]. intros i Hi. apply in_seq. destruct (B2 i Hi). lia. }
    rewrite seq_length in Q. lia.
Qed.
End B.

(** Labels between integers are truncated before they are compared. *)
Lemma trunc_small r : 0 <= r < 1 -> trunc r = 0%Z.
Proof.
  intros H. unfold trunc. destruct (Rle_dec 0 r); [|lra]. destruct (base_Int_part r) as [H1 H2].
  assert (A : IZR (Int_part r) < IZR 1) by lra. assert (B : IZR (-1) < IZR (Int_part r)) by lra.
  apply lt_IZR in A, B. lia.
Qed.

Lemma truncated_labels : nonconstant_row [1/4; 1/2] [0; 1]%nat = Ok false /\ mixed [1/4; 1/2] [0; 1]%nat.
Proof.
  assert (T1 : trunc (1/4) = 0%Z).
  { apply trunc_small. lra. }
  assert (T2 : trunc (1/2) = 0%Z).
  { apply trunc_small. lra. }
  split.
  - unfold nonconstant_row. cbn [forallb List.length Nat.ltb Nat.leb andb map nth]. rewrite T1, T2. reflexivity.
  - exists 0%nat, 1%nat. cbn. repeat split; auto. lra.
Qed.
