(** Property theorems C37-C40: nearest neighbours and batches.
    [knn] is sklearn's search; [sklearn_ok] states what is assumed of it, and [ref_ok] exhibits a
    search satisfying it. *)
From Coq Require Import Lia Lra Sorted.
From Verif Require Import Base NeighborsModel NeighborsSpec NeighborsProofs BatchProofs BatchLemmas.
Local Open Scope R_scope.
Local Open Scope string_scope.

(** * C37, C38 *)

(** For Euclidean settings get_nns returns, for every query row, the [n] training points of least
    squared distance in ascending order, each with its squared distance; it raises exactly when more
    neighbours are requested than there are points, when none are requested, and when there is no query
    row. *)
Theorem C37_nearest : forall knn hnsw dist, sklearn_ok knn dist ->
  forall en d n method kw w test qs, lower method = "exact" -> euclidean_kw kw ->
  nn_init en d n method kw = Ok w -> as_rows test = Ok qs ->
  exists train, as_rows d = Ok train /\
  (if (List.length train <? n)%nat || (List.length qs =? 0)%nat || (n =? 0)%nat
   then get_nns knn hnsw w test = Err ValueError
   else exists I D, get_nns knn hnsw w test = Ok (I, D) /\
        List.length I = List.length qs /\ List.length D = List.length qs /\
        forall r, (r < List.length qs)%nat ->
          List.length (nth r I []) = n /\ List.length (nth r D []) = n /\
          nearest sq_dist train (fun _ => True) (nth r qs []) n (combine (nth r I []) (nth r D []))).
Proof. exact get_nns_spec. Qed.
Print Assumptions C37_nearest.

(** get_batch_nns excludes the query point itself; proved for data without duplicate points. *)
Theorem C37_batch_partial : forall knn hnsw dist, sklearn_ok knn dist ->
  forall en d n method kw w batch, lower method = "exact" -> euclidean_kw kw ->
  nn_init en d n method kw = Ok w ->
  exists train, as_rows d = Ok train /\
  ((n + 1 <= List.length train)%nat -> batch <> [] -> (forall i, In i batch -> (i < List.length train)%nat) ->
   (forall i j, (i < List.length train)%nat -> (j < List.length train)%nat -> i <> j ->
      sq_dist (nth i train []) (nth j train []) <> 0) ->
   exists I D, get_batch_nns knn hnsw w batch = Ok (I, D) /\
     List.length I = List.length batch /\ List.length D = List.length batch /\
     forall r, (r < List.length batch)%nat ->
       nearest sq_dist train (fun j => j <> nth r batch O) (nth (nth r batch O) train []) n
         (combine (nth r I []) (nth r D []))).
Proof. exact get_batch_nns_spec. Qed.
Print Assumptions C37_batch_partial.

(** Finding: whatever search satisfying the contract is used, two equal training points make some
    training point appear among its own neighbours. *)
Theorem C37_duplicates_refuted : forall knn hnsw dist, sklearn_ok knn dist ->
  forall en d n method kw w f i j, lower method = "exact" -> euclidean_kw kw ->
  nn_init en d n method kw = Ok w -> (1 <= n)%nat ->
  forall train, as_rows d = Ok train -> rectangular f train -> (n + 1 <= List.length train)%nat ->
  (i < List.length train)%nat -> (j < List.length train)%nat -> i <> j -> nth i train [] = nth j train [] ->
  exists t I D, (t < List.length train)%nat /\
    get_batch_nns knn hnsw w [t] = Ok ([I], [D]) /\ In t I.
Proof. exact get_batch_nns_dup. Qed.
Print Assumptions C37_duplicates_refuted.

(** Construction: which methods are accepted and which exception the others raise. *)
Theorem C37_methods : forall en d n method kw rows, as_rows d = Ok rows ->
  (lower method = "exact" -> rows <> [] -> exists w, nn_init en d n method kw = Ok w) /\
  (lower method = "exact" -> rows = [] -> nn_init en d n method kw = Err ValueError) /\
  (lower method = "hnsw" -> en = false -> nn_init en d n method kw = Err ModuleNotFoundError) /\
  (lower method <> "exact" -> lower method <> "hnsw" -> nn_init en d n method kw = Err NotImplementedError).
Proof. exact nn_init_errors. Qed.
Print Assumptions C37_methods.

(** The method's name is read whatever its capitalisation: two names that agree up to the case of their letters are the same method, and
    other names are not confused. *)
Definition upper_letters : string := "ABCDEFGHIJKLMNOPQRSTUVWXYZ".
Definition lower_letters : string := "abcdefghijklmnopqrstuvwxyz".
Definition same_letter (a b : Ascii.ascii) : Prop :=
  a = b \/ exists i, (String.get i upper_letters = Some a \/ String.get i lower_letters = Some a) /\
                     (String.get i upper_letters = Some b \/ String.get i lower_letters = Some b).
Fixpoint same_up_to_case (s t : string) : Prop :=
  match s, t with
  | EmptyString, EmptyString => True
  | String a s', String b t' => same_letter a b /\ same_up_to_case s' t'
  | _, _ => False
  end.
Lemma lower_get i a : String.get i upper_letters = Some a \/ String.get i lower_letters = Some a -> String.get i lower_letters = Some (lower_char a).
Proof.
  unfold upper_letters, lower_letters.
  do 26 (destruct i as [|i]; [intros [H|H]; injection H as <-; reflexivity|]). intros [H|H]; destruct i; discriminate H.
Qed.
Lemma same_letter_iff a b : lower_char a = lower_char b <-> same_letter a b.
Proof.
  split.
  - intros H. 
    assert (C : forall c, lower_char c = c \/ exists i, String.get i upper_letters = Some c /\ String.get i lower_letters = Some (lower_char c)).
    { intros c. destruct c as [[] [] [] [] [] [] [] []];
        first [left; reflexivity|right; match goal with |- exists i, get i _ = Some ?c /\ _ => exists (Ascii.nat_of_ascii c - 65)%nat; split; reflexivity end]. }
    destruct (C a) as [A|(i & A & A')], (C b) as [B|(j & B & B')].
    + left. congruence.
    + right. exists j. split; [right|left; exact B]. rewrite B', <- H, A. reflexivity.
    + right. exists i. split; [left; exact A|right]. rewrite A', H, B. reflexivity.
    + right. exists i. split; [left; exact A|]. left.
      assert (E : i = j); [|subst; exact B].
      rewrite H in A'. clear - A' B'. revert A' B'. unfold lower_letters. generalize (lower_char b). intros c.
      assert (X : forall i j s, NoDup (list_ascii_of_string s) -> String.get i s = Some c -> String.get j s = Some c -> i = j).
      { clear. intros i j s. revert i j. induction s as [|d s IH]; intros i j N Hi Hj; [destruct i; discriminate Hi|].
        cbn [list_ascii_of_string] in N. inversion N as [|? ? NI N' EQ]; subst.
        assert (IN : forall k s, String.get k s = Some c -> In c (list_ascii_of_string s)).
        { clear. intros k s. revert k. induction s as [|d s IH]; intros k Hk; [destruct k; discriminate Hk|].
          destruct k as [|k]; [injection Hk as ->; left; reflexivity|right; apply (IH k); exact Hk]. }
        destruct i as [|i], j as [|j]; [reflexivity| | |].
        - exfalso. injection Hi as ->. apply NI. apply (IN j). exact Hj.
        - exfalso. injection Hj as ->. apply NI. apply (IN i). exact Hi.
        - f_equal. apply IH; auto. }
      intros Hi Hj. apply (X i j _) with (2 := Hi) (3 := Hj).
      apply (NoDup_count_occ' Ascii.ascii_dec). intros y IN. cbn [list_ascii_of_string In] in IN.
      repeat (destruct IN as [<-|IN]; [reflexivity|]). destruct IN.
  - intros [->|(i & A & B)]; [reflexivity|]. apply lower_get in A, B. congruence.
Qed.
Theorem C37_method_case : forall en d n kw method method',
  (lower method = lower method' <-> same_up_to_case method method') /\
  (same_up_to_case method method' -> nn_init en d n method kw = nn_init en d n method' kw).
Proof.
  intros en d n kw method method'.
  assert (E : lower method = lower method' <-> same_up_to_case method method').
  { revert method'. induction method as [|a s IH]; intros [|b t]; cbn [lower same_up_to_case]; try (split; [discriminate|intros []]); [tauto|].
    rewrite <- IH, <- same_letter_iff. split; [intros H; injection H; auto|intros [-> ->]; reflexivity]. }
  split; [exact E|]. intros H. apply E in H. unfold nn_init. rewrite H. reflexivity.
Qed.
Print Assumptions C37_method_case.
Example C37_method_case_sat : same_up_to_case "ExacT" "exact" /\ ~ same_up_to_case "hnsw" "exact".
Proof.
  split; [repeat split; first [left; reflexivity|right; exists 4%nat; split; [left; reflexivity|right; reflexivity]|right; exists 19%nat; split; [left; reflexivity|right; reflexivity]]|].
  intros H. cbn in H. destruct H as (_ & _ & _ & _ & H). exact H.
Qed.

(** Unless metric and p are Minkowski with p = 2 the reported distances are the metric's own. *)
Theorem C38_other_metrics : forall knn hnsw dist, sklearn_ok knn dist ->
  forall en d n method kw w test qs, lower method = "exact" ->
  is_minkowski2 (exact_ctor n kw) = false ->
  nn_init en d n method kw = Ok w -> as_rows test = Ok qs ->
  exists train, as_rows d = Ok train /\
  ((1 <= n <= List.length train)%nat -> (1 <= List.length qs)%nat -> exists I D, get_nns knn hnsw w test = Ok (I, D) /\
        List.length I = List.length qs /\ List.length D = List.length qs /\
        forall r, (r < List.length qs)%nat ->
          nearest (dist (exact_ctor n kw)) train (fun _ => True) (nth r qs []) n
            (combine (nth r I []) (nth r D []))).
Proof. exact get_nns_other. Qed.
Print Assumptions C38_other_metrics.

(** Each single reported number is the squared distance to the index beside it. *)
Theorem C38_squared : forall knn hnsw dist, sklearn_ok knn dist ->
  forall en d n method kw w test qs I D, lower method = "exact" -> euclidean_kw kw ->
  nn_init en d n method kw = Ok w -> as_rows test = Ok qs ->
  get_nns knn hnsw w test = Ok (I, D) ->
  forall r c train, as_rows d = Ok train -> (r < List.length qs)%nat -> (c < n)%nat ->
  nth c (nth r D []) 0 = sq_dist (nth r qs []) (nth (nth c (nth r I []) O) train []).
Proof.
  intros knn hnsw dist Hsk en d n method kw w test qs I D Hm He Hi Ht HG r c train Et Hr Hc.
  destruct (get_nns_spec knn hnsw dist Hsk en d n method kw w test qs Hm He Hi Ht) as [train' [Et' H]].
  rewrite Et in Et'. injection Et' as <-.
  destruct ((List.length train <? n)%nat || _ || _); [congruence|].
  destruct H as [I' [D' [HG' [_ [_ H]]]]]. rewrite HG in HG'. injection HG' as <- <-.
  destruct (H r Hr) as [L1 [L2 [_ [_ [H3 _]]]]].
  apply (H3 (nth c (nth r I []) O) (nth c (nth r D []) 0)).
  rewrite <- (combine_nth (nth r I []) (nth r D []) c O 0) by congruence.
  apply nth_In. rewrite combine_length. lia.
Qed.
Print Assumptions C38_squared.

Example C37_hypotheses : exists knn dist, sklearn_ok knn dist /\ euclidean_kw [] /\
  (exists w, nn_init false (D1 [0; 1; 3]) 1 "Exact" [] = Ok w) /\
  is_minkowski2 (exact_ctor 1 [("metric", VStr "manhattan")]) = false /\
  nth 0 [[1]; [2]; [1]] [] = nth 2 [[1]; [2]; [1]] [].
Proof.
  exists ref_knn, (fun _ => ref_dist). split; [apply ref_ok|]. split; [unfold euclidean_kw; cbn; auto|].
  split; [eexists; reflexivity|]. split; reflexivity.
Qed.

(** The approximate method in its default space reports the same squared distances, ascending and
    without repetition; where the index finds the true nearest points, it answers like the exact one. *)
Theorem C38_hnsw : forall knn hnsw, hnsw_ok hnsw ->
  forall d n method kw w test qs, lower method = "hnsw" ->
  (dget kw "space" = None \/ dget kw "space" = Some (VStr "l2")) ->
  nn_init true d n method kw = Ok w -> as_rows test = Ok qs ->
  exists train, as_rows d = Ok train /\
  if (List.length train <? n)%nat then get_nns knn hnsw w test = Err ValueError
  else exists I D, get_nns knn hnsw w test = Ok (I, D) /\
    List.length I = List.length qs /\ List.length D = List.length qs /\
    forall r, (r < List.length qs)%nat ->
      List.length (nth r I []) = n /\ List.length (nth r D []) = n /\ NoDup (nth r I []) /\
      (forall c, (c < n)%nat -> (nth c (nth r I []) O < List.length train)%nat /\
         nth c (nth r D []) 0 = sq_dist (nth r qs []) (nth (nth c (nth r I []) O) train [])) /\
      StronglySorted Rle (nth r D []) /\
      ((forall q, nearest sq_dist train (fun _ => True) q n (hnsw (VStr "l2") train q n)) ->
         nearest sq_dist train (fun _ => True) (nth r qs []) n (combine (nth r I []) (nth r D []))).
Proof. exact hnsw_spec. Qed.
Print Assumptions C38_hnsw.

Example C38_hnsw_sat : hnsw_ok (fun _ train q k => query_row ref_knn (fun _ _ _ _ => []) (mkNN train k (Exact [])) q k) /\
  exists w, nn_init true (D1 [0; 1; 3]) 2 "HNSW" [("M", VNum 16)] = Ok w.
Proof.
  split; [|eexists; reflexivity]. intros train q k Hk. unfold query_row. cbn [nn_meth nn_train].
  assert (EM : is_minkowski2 [] = true) by (unfold is_minkowski2; cbn -[Reqb]; apply Reqb_eq; reflexivity). rewrite EM.
  destruct (proj1 ref_ok [] train q k Hk) as (L & N & V & SS & _).
  rewrite map_length, map_map. cbn [fst]. split; [exact L|]. split; [exact N|]. split.
  - intros i x Hi. apply in_map_iff in Hi. destruct Hi as [[j y] [E Hj]]. cbn [fst snd] in E.
    assert (i = j) as -> by congruence. assert (x = y ^ 2) as -> by congruence.
    destruct (V j y Hj) as (V1 & _ & ->). split; [exact V1|]. unfold ref_dist. apply pow2_sqrt, sq_dist_nonneg.
  - assert (P : Forall (fun e => 0 <= snd e) (ref_knn [] train q k)).
    { apply Forall_forall. intros [j y] Hj. destruct (V j y Hj) as (_ & _ & ->). apply sqrt_pos. }
    revert P. generalize (ref_knn [] train q k), SS. clear. intros l SS. induction SS as [|a l SS IH F]; cbn; [constructor|].
    intros P. inversion P as [|? ? P1 P2]; subst. constructor; [auto|]. rewrite Forall_map. cbn [snd].
    rewrite Forall_forall in *. intros b Hb. specialize (F b Hb). specialize (P2 b Hb). cbn beta in *.
    nra.
Qed.

(** * C39 *)

(** Whatever numpy draws. *)
Theorem C39_sample_batch : forall knn hnsw w batch_count train_count drawn idx nns,
  valid_choice (seq 0 train_count) batch_count drawn \/ (train_count <= batch_count)%nat ->
  sample_batch knn hnsw w batch_count train_count drawn = Ok (idx, nns) ->
  NoDup idx /\ (forall i, In i idx -> (i < train_count)%nat) /\
  List.length idx = Nat.min batch_count train_count /\
  ((train_count <= batch_count)%nat -> idx = seq 0 train_count) /\
  Forall2 (neighbourhood knn hnsw w) idx nns.
Proof. exact sample_batch_rows. Qed.
Print Assumptions C39_sample_batch.

Theorem C39_succeeds : forall knn hnsw w batch_count drawn,
  valid_choice (seq 0 (List.length (nn_train w))) batch_count drawn \/
    (List.length (nn_train w) <= batch_count)%nat ->
  (nn_count w + 1 <= List.length (nn_train w))%nat -> (1 <= batch_count)%nat ->
  exists idx nns, sample_batch knn hnsw w batch_count (List.length (nn_train w)) drawn = Ok (idx, nns).
Proof. exact sample_batch_total. Qed.
Print Assumptions C39_succeeds.

(** Finding: an exact lookup refuses a batch of no points, so a batch of size zero raises instead of
    being empty; so does asking an exact lookup about no query rows. *)
Theorem C39_empty_batch_refuted : forall knn hnsw train n ctor train_count,
  let w := mkNN train n (Exact ctor) in
  sample_batch knn hnsw w 0 train_count [] = Err ValueError /\
  full_filtered_batch knn hnsw w [] = Err ValueError /\
  get_nns knn hnsw w (D2 []) = Err ValueError.
Proof.
  intros knn hnsw train n ctor train_count w.
  assert (B : get_batch_nns knn hnsw w [] = Err ValueError).
  { unfold get_batch_nns, get_nns_k, refuses, w. cbn [forallb map nn_meth List.length Nat.eqb orb]. rewrite Bool.orb_true_r. reflexivity. }
  split; [|split].
  - unfold sample_batch. destruct train_count; cbn [Nat.ltb Nat.leb seq]; rewrite B; reflexivity.
  - unfold full_filtered_batch. cbn [List.length seq]. rewrite B. reflexivity.
  - unfold get_nns, get_nns_k, refuses, w. cbn [as_rows bind nn_meth List.length Nat.eqb orb]. rewrite Bool.orb_true_r. reflexivity.
Qed.
Print Assumptions C39_empty_batch_refuted.

Example C39_hypotheses : valid_choice (seq 0 (List.length (nn_train ex_nn))) 2 [2; 0]%nat /\
  (nn_count ex_nn + 1 <= List.length (nn_train ex_nn))%nat.
Proof.
  split; [|cbn; lia]. split; [reflexivity|]. split.
  - repeat constructor; cbn; intuition discriminate.
  - intros x H. cbn in *. tauto.
Qed.

(** * C40 *)

(** Only distinct in-range points with two different labels among their neighbours, at most
    [batch_count] of them, with the neighbour rows of exactly these points. *)
Theorem C40_nonconstant : forall knn hnsw w labels batch_count draw idx nns,
  get_balanced_batch knn hnsw w labels batch_count draw = Ok (idx, nns) ->
  (forall j pop n, (n <= List.length pop)%nat -> NoDup pop -> valid_choice pop n (draw j pop n)) ->
  NoDup idx /\ (forall i, In i idx -> (i < List.length labels)%nat) /\
  (List.length idx <= batch_count)%nat /\
  Forall2 (fun i nn => neighbourhood knn hnsw w i nn /\ mixed labels nn) idx nns.
Proof. exact get_balanced_rows. Qed.
Print Assumptions C40_nonconstant.

(** The number of sampled points of each class, for integer labels. *)
Theorem C40_class_counts : forall knn hnsw w labels batch_count draw idx nns,
  get_balanced_batch knn hnsw w labels batch_count draw = Ok (idx, nns) ->
  (batch_count < List.length labels)%nat ->
  (forall j pop n, (n <= List.length pop)%nat -> NoDup pop -> valid_choice pop n (draw j pop n)) ->
  integral labels ->
  forall c cand, In c labels -> NoDup cand ->
    (forall i, In i cand <-> (i < List.length labels)%nat /\ nth i labels 0 = c /\
       exists nn, neighbourhood knn hnsw w i nn /\ mixed labels nn) ->
    class_count labels c idx = Nat.min (List.length cand) (batch_count / List.length (nodup Req_EM_T labels)).
Proof. exact balanced_counts. Qed.
Print Assumptions C40_class_counts.

(** With a batch at least as large as the data all and only the mixed points are returned. *)
Theorem C40_full : forall knn hnsw w labels batch_count draw idx nns,
  get_balanced_batch knn hnsw w labels batch_count draw = Ok (idx, nns) ->
  (List.length labels <= batch_count)%nat -> integral labels ->
  forall i, (i < List.length labels)%nat ->
    (In i idx <-> exists nn, neighbourhood knn hnsw w i nn /\ mixed labels nn).
Proof. exact balanced_full. Qed.
Print Assumptions C40_full.

Theorem C40_succeeds : forall knn hnsw dist, sklearn_ok knn dist ->
  forall train n kw labels batch_count draw,
  euclidean_kw kw -> List.length labels = List.length train -> (1 <= n)%nat ->
  (n + 1 <= List.length train)%nat ->
  exists idx nns, get_balanced_batch knn hnsw (mkNN train n (Exact (exact_ctor n kw))) labels batch_count draw = Ok (idx, nns).
Proof. exact balanced_total. Qed.
Print Assumptions C40_succeeds.

(** Finding: labels are cast to integers, so a neighbourhood with the labels 0.25 and 0.5 counts as
    constant. *)
Theorem C40_fractional_refuted :
  nonconstant_row [1/4; 1/2] [0; 1]%nat = Ok false /\ mixed [1/4; 1/2] [0; 1]%nat.
Proof. exact truncated_labels. Qed.
Print Assumptions C40_fractional_refuted.

(** Three points, two neighbours each, labels 0, 0, 1: point 0 has a mixed neighbourhood. *)
Example C40_hypotheses : forall hnsw, exists nn,
  neighbourhood ref_knn hnsw ex_w3 0 nn /\ mixed [0; 0; 1] nn /\ integral [0; 0; 1] /\
  (forall draw, exists idx nns, get_balanced_batch ref_knn hnsw ex_w3 [0; 0; 1] 2 draw = Ok (idx, nns)) /\
  exists draw, forall (j : nat) pop n, (n <= List.length pop)%nat -> NoDup pop -> valid_choice pop n (draw j pop n).
Proof.
  intros hnsw. destruct (ex_w3_neigh ref_knn hnsw _ ref_ok 0 ltac:(lia)) as [nn [H1 H2]]. exists nn.
  split; [assumption|]. split.
  { exists 1%nat, 2%nat. split; [apply H2; lia|]. split; [apply H2; lia|]. cbn. lra. }
  split. { intros r [<-|[<-|[<-|[]]]]; [exists 0%Z|exists 0%Z|exists 1%Z]; reflexivity. }
  split. { intros draw. apply (balanced_total ref_knn hnsw _ ref_ok); cbn; unfold euclidean_kw; cbn; auto. }
  exists (fun _ pop n => firstn n pop). intros _ pop n Hn ND. split; [apply firstn_length_le; assumption|].
  split; [|intros x Hx; rewrite <- (firstn_skipn n pop); apply in_app_iff; auto].
  rewrite <- (firstn_skipn n pop) in ND. revert ND. generalize (skipn n pop). generalize (firstn n pop).
  intros l1 l2 ND. induction l1 as [|a l1 IH]; [constructor|]. cbn in ND. inversion ND; subst.
  constructor; [|auto]. intros C. apply H3. apply in_app_iff. auto.
Qed.
