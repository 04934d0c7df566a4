(** Batch properties in terms of the neighbour rows get_batch_nns reports. *)
From Coq Require Import Lia Lra Sorted Permutation.
From Verif Require Import Base BaseFacts NeighborsModel NeighborsSpec NeighborsProofs BatchProofs.
Local Open Scope R_scope.
Local Open Scope string_scope.

(** [nn] is the neighbourhood the library reports for training point [i]. *)
Definition neighbourhood knn hnsw (w : nn_wrapper) (i : nat) (nn : list nat) : Prop :=
  exists dists, get_batch_nns knn hnsw w [i] = Ok ([nn], [dists]).

Section B.
Variable knn : dict nnval -> list point -> point -> nat -> list (nat * R).
Variable hnsw : nnval -> list point -> point -> nat -> list (nat * R).
Notation neighbourhood := (neighbourhood knn hnsw).

Lemma neighbourhood_iff w i nn : neighbourhood w i nn <->
  (i < List.length (nn_train w))%nat /\ (nn_count w + 1 <= List.length (nn_train w))%nat /\ nn = nn_of knn hnsw w i.
Proof.
  split.
  - intros [D H]. destruct (get_batch_nns_inv _ _ _ _ _ _ H) as [H1 H2].
    split; [apply H1; left; reflexivity|]. split; [assumption|].
    apply batch_nns_all in H. cbn [map] in H. injection H as ->. reflexivity.
  - intros [H1 [H2 ->]]. eexists. rewrite get_batch_nns_rows; [cbn [map]; reflexivity|assumption|discriminate|].
    intros j [<-|[]]. assumption.
Qed.

Lemma rows_neighbourhoods w idx : 
  (nn_count w + 1 <= List.length (nn_train w))%nat ->
  (forall i, In i idx -> (i < List.length (nn_train w))%nat) ->
  Forall2 (neighbourhood w) idx (map (nn_of knn hnsw w) idx).
Proof.
  intros Hn H. induction idx as [|i idx IH]; cbn [map]; constructor.
  - apply neighbourhood_iff. split; [apply H; left; reflexivity|]. auto.
  - apply IH. intros j Hj. apply H. right. assumption.
Qed.

Lemma sample_batch_rows w batch_count train_count drawn idx nns :
  valid_choice (seq 0 train_count) batch_count drawn \/ (train_count <= batch_count)%nat ->
  sample_batch knn hnsw w batch_count train_count drawn = Ok (idx, nns) ->
  NoDup idx /\ (forall i, In i idx -> (i < train_count)%nat) /\
  List.length idx = Nat.min batch_count train_count /\
  ((train_count <= batch_count)%nat -> idx = seq 0 train_count) /\
  Forall2 (neighbourhood w) idx nns.
Proof.
  intros Hv H. destruct (sample_batch_spec knn hnsw _ _ _ _ _ _ Hv H) as [H1 [H2 [H3 [H4 [D H5]]]]].
  split; [assumption|]. split; [assumption|]. split; [assumption|]. split; [assumption|].
  destruct (get_batch_nns_inv _ _ _ _ _ _ H5) as [G1 G2]. rewrite (batch_nns_all _ _ _ _ _ _ H5).
  apply rows_neighbourhoods; assumption.
Qed.

Lemma balanced_sizes w labels batch_count draw idx nns :
  get_balanced_batch knn hnsw w labels batch_count draw = Ok (idx, nns) ->
  (forall i, (i < List.length labels)%nat -> (i < List.length (nn_train w))%nat) /\
  (nn_count w + 1 <= List.length (nn_train w))%nat.
Proof.
  unfold get_balanced_batch, sample_balanced_batch, full_filtered_batch. intros H.
  destruct (get_batch_nns knn hnsw w (seq 0 (List.length labels))) as [[I D]|] eqn:E;
    [|destruct (batch_count <? List.length labels)%nat; discriminate].
  destruct (get_batch_nns_inv _ _ _ _ _ _ E) as [G1 G2]. split; [|assumption].
  intros i Hi. apply G1. apply in_seq. lia.
Qed.

Lemma get_balanced_rows w labels batch_count draw idx nns :
  get_balanced_batch knn hnsw w labels batch_count draw = Ok (idx, nns) ->
  (forall j pop n, (n <= List.length pop)%nat -> NoDup pop -> valid_choice pop n (draw j pop n)) ->
  NoDup idx /\ (forall i, In i idx -> (i < List.length labels)%nat) /\
  (List.length idx <= batch_count)%nat /\
  Forall2 (fun i nn => neighbourhood w i nn /\ mixed labels nn) idx nns.
Proof.
  intros H HD. destruct (balanced_sizes _ _ _ _ _ _ H) as [G1 G2].
  destruct (get_balanced_spec _ _ _ _ _ _ _ _ H HD) as [H1 [H2 [H3 H4]]].
  split; [assumption|]. split; [intros i Hi; apply H2, Hi|]. split; [assumption|].
  rewrite H4. clear - G1 G2 H2. induction idx as [|i idx IH]; cbn [map]; constructor.
  - destruct (H2 i (or_introl eq_refl)) as [A B]. split; [|assumption].
    apply neighbourhood_iff. auto.
  - apply IH. intros j Hj. apply H2. right. assumption.
Qed.

Lemma balanced_counts w labels batch_count draw idx nns :
  get_balanced_batch knn hnsw w labels batch_count draw = Ok (idx, nns) ->
  (batch_count < List.length labels)%nat ->
  (forall j pop n, (n <= List.length pop)%nat -> NoDup pop -> valid_choice pop n (draw j pop n)) ->
  integral labels ->
  forall c cand, In c labels -> NoDup cand ->
    (forall i, In i cand <-> (i < List.length labels)%nat /\ nth i labels 0 = c /\
       exists nn, neighbourhood w i nn /\ mixed labels nn) ->
    class_count labels c idx = Nat.min (List.length cand) (batch_count / List.length (nodup Req_EM_T labels)).
Proof.
  intros H Hlt HD HI c cand Hc ND Hcand. destruct (balanced_sizes _ _ _ _ _ _ H) as [G1 G2].
  unfold get_balanced_batch in H. apply Nat.ltb_lt in Hlt. rewrite Hlt in H.
  destruct (balanced_spec _ _ _ _ _ _ _ _ H HD) as [_ [_ [H3 _]]]. apply H3; auto.
  intros i. rewrite Hcand. split; intros [A [B C]]; (split; [assumption|split; [assumption|]]).
  - destruct C as [nn [C1 C2]]. apply neighbourhood_iff in C1. destruct C1 as [_ [_ ->]]. assumption.
  - exists (nn_of knn hnsw w i). split; [|assumption]. apply neighbourhood_iff. auto.
Qed.

Lemma balanced_full w labels batch_count draw idx nns :
  get_balanced_batch knn hnsw w labels batch_count draw = Ok (idx, nns) ->
  (List.length labels <= batch_count)%nat -> integral labels ->
  forall i, (i < List.length labels)%nat ->
    (In i idx <-> exists nn, neighbourhood w i nn /\ mixed labels nn).
Proof.
  intros H Hge HI i Hi. destruct (balanced_sizes _ _ _ _ _ _ H) as [G1 G2].
  unfold get_balanced_batch in H. apply Nat.ltb_ge in Hge. rewrite Hge in H.
  destruct (full_filtered_spec _ _ _ _ _ _ H) as [_ [H2 [H3 _]]]. split.
  - intros Hin. exists (nn_of knn hnsw w i). split; [apply neighbourhood_iff; auto|]. apply H2, Hin.
  - intros [nn [C1 C2]]. apply H3; auto. apply neighbourhood_iff in C1. destruct C1 as [_ [_ ->]]. assumption.
Qed.
End B.

(** ** nn_init *)
Lemma nn_init_errors en d n method kw rows : as_rows d = Ok rows ->
  (lower method = "exact" -> rows <> [] -> exists w, nn_init en d n method kw = Ok w) /\
  (lower method = "exact" -> rows = [] -> nn_init en d n method kw = Err ValueError) /\
  (lower method = "hnsw" -> en = false -> nn_init en d n method kw = Err ModuleNotFoundError) /\
  (lower method <> "exact" -> lower method <> "hnsw" -> nn_init en d n method kw = Err NotImplementedError).
Proof.
  intros H. unfold nn_init. rewrite H. cbn [bind]. split; [|split; [|split]].
  - intros -> NE. destruct rows; [congruence|]. cbn. eauto.
  - intros -> ->. reflexivity.
  - intros -> ->. reflexivity.
  - intros H1 H2. apply String.eqb_neq in H1, H2. rewrite H1, H2. reflexivity.
Qed.

(** ** Example *)
Definition ex_nn : nn_wrapper := mkNN [[0]; [1]; [3]] 1 (Exact (exact_ctor 1 [])).
Lemma ex_nn_init : nn_init false (D1 [0; 1; 3]) 1 "Exact" [] = Ok ex_nn.
Proof. reflexivity. Qed.

(** ** Totality and an example with a mixed neighbourhood *)
Lemma sequence_ok {A B} (f : A -> result B) l : (forall x, In x l -> exists y, f x = Ok y) ->
  exists r, sequence (map f l) = Ok r.
Proof.
  induction l as [|x l IH]; intros H; cbn [map sequence]; [eauto|].
  destruct (H x (or_introl eq_refl)) as [y ->]. destruct IH as [r Hr]; [intros; apply H; right; assumption|].
  cbn [bind]. rewrite Hr. cbn [bind]. eauto.
Qed.

Section T.
Variable knn : dict nnval -> list point -> point -> nat -> list (nat * R).
Variable hnsw : nnval -> list point -> point -> nat -> list (nat * R).
Variable dist : dict nnval -> point -> point -> R.
Hypothesis Hsk : sklearn_ok knn dist.

Lemma query_row_in train n kw q k e : euclidean_kw kw -> (k <= List.length train)%nat ->
  In e (query_row knn hnsw (mkNN train n (Exact (exact_ctor n kw))) q k) -> (fst e < List.length train)%nat.
Proof.
  intros He Hk Hin. destruct (query_row_euclid knn hnsw dist Hsk train n kw q k He Hk) as [_ [_ [H _]]].
  destruct e as [i x]. apply (H i x Hin).
Qed.

Lemma balanced_total train n kw labels batch_count draw :
  euclidean_kw kw -> List.length labels = List.length train -> (1 <= n)%nat ->
  (n + 1 <= List.length train)%nat ->
  exists idx nns, get_balanced_batch knn hnsw (mkNN train n (Exact (exact_ctor n kw))) labels batch_count draw = Ok (idx, nns).
Proof.
  intros He HL Hn Hlt. set (w := mkNN train n (Exact (exact_ctor n kw))).
  assert (M : exists D, get_batch_nns knn hnsw w (seq 0 (List.length labels)) =
    Ok (map (nn_of knn hnsw w) (seq 0 (List.length labels)), D)).
  { eexists. rewrite get_batch_nns_rows; [reflexivity|exact Hlt| |].
    { intros E. apply (f_equal (@List.length nat)) in E. rewrite seq_length in E. cbn in E. lia. }
    intros i Hi. apply in_seq in Hi.
    change (nn_train w) with train. rewrite <- HL. apply Hi. }
  destruct M as [D M].
  destruct (sequence_ok (nonconstant_row labels) (map (nn_of knn hnsw w) (seq 0 (List.length labels)))) as [mask EM].
  { intros nn Hnn. apply in_map_iff in Hnn. destruct Hnn as [i [<- Hi]].
    destruct (query_row_euclid knn hnsw dist Hsk train n kw (nth i train []) (n + 1) He Hlt) as [QL _].
    fold w in QL.
    unfold nonconstant_row.
    assert (F : forallb (fun i => (i <? List.length labels)%nat) (nn_of knn hnsw w i) = true).
    { apply forallb_forall. intros j Hj. apply Nat.ltb_lt. rewrite HL. unfold nn_of in Hj.
      assert (Hj' : In j (map fst (query_row knn hnsw w (nth i train []) (n + 1)))).
      { change (nn_train w) with train in Hj. change (nn_count w) with n in Hj. revert Hj.
        destruct (map fst _); cbn; tauto. }
      apply in_map_iff in Hj'. destruct Hj' as [e [<- He']]. eapply query_row_in; eauto. }
    rewrite F.
    assert (NE : nn_of knn hnsw w i <> []).
    { intros C. unfold nn_of in C. change (nn_train w) with train in C. change (nn_count w) with n in C.
      apply (f_equal (@List.length nat)) in C. rewrite tl_map, map_length in C.
      destruct (query_row knn hnsw w (nth i train []) (n + 1)) as [|e l]; cbn in *; lia. }
    destruct (nn_of knn hnsw w i) as [|a l]; [contradiction|]. cbn [map zmax zmin]. eauto. }
  unfold get_balanced_batch, sample_balanced_batch, full_filtered_batch. rewrite M. cbn [bind fst]. rewrite EM. cbn [bind].
  destruct (batch_count <? List.length labels)%nat; [|eauto].
  destruct (List.length (unique labels) =? 0)%nat eqn:EC; [|eauto].
  exfalso. apply Nat.eqb_eq in EC. destruct labels as [|a labels]; [cbn in HL; lia|].
  assert (H : In a (unique (a :: labels))) by (apply unique_in; left; reflexivity).
  destruct (unique (a :: labels)); [destruct H|discriminate].
Qed.

Definition ex_w3 : nn_wrapper := mkNN [[0]; [1]; [3]] 2 (Exact (exact_ctor 2 [])).
Lemma ex_w3_neigh i : (i < 3)%nat -> exists nn, neighbourhood knn hnsw ex_w3 i nn /\
  forall j, In j nn <-> (j < 3)%nat /\ j <> i.
Proof.
  intros Hi.
  assert (Ekw : euclidean_kw []) by (unfold euclidean_kw; cbn; auto).
  destruct (get_batch_nns_spec knn hnsw dist Hsk false (D1 [0; 1; 3]) 2 "exact" [] ex_w3 [i] eq_refl Ekw eq_refl)
    as [train [Et H]].
  cbn in Et. injection Et as <-.
  destruct H as [I [D [HE [L1 [L2 H]]]]].
  - cbn. lia.
  - discriminate.
  - intros j [<-|[]]. assumption.
  - intros a b Ha Hb Hne. change (List.length [[0]; [1]; [3]]) with 3%nat in Ha, Hb.
    destruct a as [|[|[|a]]]; try lia; destruct b as [|[|[|b]]]; try lia; cbn; lra.
  - cbn in L1, L2. destruct I as [|nn [|? I]]; cbn in L1; try lia. destruct D as [|ds [|? D]]; cbn in L2; try lia.
    exists nn. split; [exists ds; exact HE|].
    specialize (H 0%nat ltac:(cbn; lia)). cbn [nth] in H.
    assert (LN : map fst (combine nn ds) = nn /\ List.length nn = 2%nat).
    { rewrite get_batch_nns_rows in HE; [|cbn; lia|discriminate|intros j [<-|[]]; assumption]. cbn [map] in HE.
      set (qr := query_row knn hnsw ex_w3 (nth i (nn_train ex_w3) []) (nn_count ex_w3 + 1)) in HE.
      assert (E1 : nn = tl (map fst qr)) by congruence. assert (E2 : ds = tl (map snd qr)) by congruence.
      rewrite tl_map in E1. rewrite tl_map in E2. rewrite E1, E2, combine_fst_snd. split; [reflexivity|]. rewrite map_length.
      destruct (query_row_euclid knn hnsw dist Hsk [[0]; [1]; [3]] 2 [] (nth i [[0];[1];[3]] []) 3 Ekw) as [QL _]; [cbn; lia|].
      change (List.length qr = 3%nat) in QL. destruct qr; cbn in *; lia. }
    destruct LN as [EM LN]. destruct H as [_ [ND [HI _]]]. rewrite EM in ND.
    assert (Sub : forall j, In j nn -> (j < 3)%nat /\ j <> i).
    { intros j Hj. rewrite <- EM in Hj. apply in_map_iff in Hj. destruct Hj as [[j' x] [<- Hin]].
      destruct (HI _ _ Hin) as [A [B _]]. auto. }
    intros j. split; [apply Sub|]. intros [Hj Hne].
    destruct nn as [|a [|b [|? nn]]]; cbn in LN; try lia. inversion ND as [|? ? N1 _]; subst.
    destruct (Sub a (or_introl eq_refl)). destruct (Sub b (or_intror (or_introl eq_refl))).
    assert (a <> b) by (intros ->; apply N1; left; reflexivity). cbn. lia.
Qed.
End T.
