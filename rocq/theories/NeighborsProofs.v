(** Proofs about neighbours and batches. *)
From Coq Require Import Lia Lra Sorted.
From Verif Require Import Base BaseFacts NeighborsModel NeighborsSpec.
Local Open Scope R_scope.
Local Open Scope string_scope.

(** What is assumed of sklearn: for every constructor setting there is a distance such that the
    answer lists the nearest points; for the Minkowski metric with p = 2 and no weights it is the
    Euclidean distance. *)
Definition sklearn_ok (knn : dict nnval -> list point -> point -> nat -> list (nat * R))
  (dist : dict nnval -> point -> point -> R) : Prop :=
  (forall ctor train q k, (k <= List.length train)%nat ->
     nearest (dist ctor) train (fun _ => True) q k (knn ctor train q k)) /\
  (forall ctor, is_minkowski2 ctor = true -> dget ctor "metric_params" = None ->
     forall x y, dist ctor x y = sqrt (sq_dist x y)).

(** What is assumed of hnswlib: an index in the space "l2" answers with as many different points as
    asked for, in ascending order, each with its squared Euclidean distance.  That they are the
    nearest ones is not assumed: the search is approximate. *)
Definition hnsw_ok (hnsw : nnval -> list point -> point -> nat -> list (nat * R)) : Prop :=
  forall train q k, (k <= List.length train)%nat ->
    List.length (hnsw (VStr "l2") train q k) = k /\
    NoDup (map fst (hnsw (VStr "l2") train q k)) /\
    (forall i x, In (i, x) (hnsw (VStr "l2") train q k) ->
       (i < List.length train)%nat /\ x = sq_dist q (nth i train [])) /\
    StronglySorted (fun a b => snd a <= snd b) (hnsw (VStr "l2") train q k).

Lemma combine_fst_snd {A B} (l : list (A * B)) : combine (map fst l) (map snd l) = l.
Proof. induction l as [|[a b] l IH]; cbn; congruence. Qed.

(** The hnsw method in its default space reports squared Euclidean distances. *)
Lemma hnsw_spec knn hnsw : hnsw_ok hnsw ->
  forall d n method kw w test qs, lower method = "hnsw" ->
  (dget kw "space" = None \/ dget kw "space" = Some (VStr "l2")) ->
  nn_init true d n method kw = Ok w -> as_rows test = Ok qs ->
  exists train, as_rows d = Ok train /\
  if (List.length train <? n)%nat then get_nns knn hnsw w test = Err ValueError
  else exists I D, get_nns knn hnsw w test = Ok (I, D) /\
    List.length I = List.length qs /\ List.length D = List.length qs /\
    forall r, (r < List.length qs)%nat ->
      List.length (nth r I []) = n /\ List.length (nth r D []) = n /\ NoDup (nth r I []) /\
      (forall c, (c < n)%nat -> (nth c (nth r I []) O < List.length train)%nat /\
         nth c (nth r D []) 0 = sq_dist (nth r qs []) (nth (nth c (nth r I []) O) train [])) /\
      StronglySorted Rle (nth r D []) /\
      ((forall q, nearest sq_dist train (fun _ => True) q n (hnsw (VStr "l2") train q n)) ->
         nearest sq_dist train (fun _ => True) (nth r qs []) n (combine (nth r I []) (nth r D []))).
Proof.
  intros H d n method kw w test qs Hm Hs Hi Ht. unfold nn_init in Hi.
  destruct (as_rows d) as [train|e] eqn:Et; cbn [bind] in Hi; [|discriminate].
  exists train. split; [reflexivity|]. rewrite Hm in Hi. cbn in Hi.
  assert (W : w = mkNN train n (Hnsw (VStr "l2"))).
  { destruct Hs as [E|E]; rewrite E in Hi; congruence. }
  subst w. unfold get_nns. rewrite Ht. cbn [bind]. unfold get_nns_k. cbn [nn_train nn_count refuses nn_meth].
  rewrite orb_false_r. destruct (Nat.ltb_spec (List.length train) n) as [C|C]; [reflexivity|].
  eexists _, _. split; [reflexivity|]. rewrite !map_length. split; [reflexivity|]. split; [reflexivity|].
  intros r Hr.
  assert (Q : forall B (g : list (nat * R) -> list B), g [] = [] ->
    nth r (map g (map (fun q => query_row knn hnsw (mkNN train n (Hnsw (VStr "l2"))) q n) qs)) [] =
    g (hnsw (VStr "l2") train (nth r qs []) n)).
  { intros B g G. rewrite (nth_indep _ [] (g [])) by (rewrite !map_length; auto). rewrite (map_nth g).
    rewrite (nth_indep _ [] (query_row knn hnsw (mkNN train n (Hnsw (VStr "l2"))) [] n)) by (rewrite map_length; auto).
    rewrite (map_nth (fun q => query_row knn hnsw (mkNN train n (Hnsw (VStr "l2"))) q n)). reflexivity. }
  rewrite (Q _ (map fst)), (Q _ (map snd)) by reflexivity.
  destruct (H train (nth r qs []) n C) as [L [N [V S]]].
  rewrite !map_length. split; [auto|]. split; [auto|]. split; [auto|]. split; [|split].
  - intros c Hc. pose proof (nth_In (hnsw (VStr "l2") train (nth r qs []) n) (O, 0) (n := c) ltac:(lia)) as K.
    destruct (nth c _ (O, 0)) as [i x] eqn:E in K. apply V in K.
    rewrite (nth_indep _ O (fst (O, 0))) by (rewrite map_length; lia). rewrite map_nth, E.
    rewrite (nth_indep _ 0 (snd (O, 0))) by (rewrite map_length; lia). rewrite map_nth, E. exact K.
  - clear - S. induction S as [|a l S IH F]; cbn; [constructor|]. constructor; auto.
    rewrite Forall_map. exact F.
  - intros Hn. rewrite combine_fst_snd. apply Hn.
Qed.

(** ** sq_dist *)
Lemma sq_dist_nonneg x : forall y, 0 <= sq_dist x y.
Proof.
  induction x as [|a x IH]; intros [|b y]; cbn [sq_dist]; try lra.
  specialize (IH y). pose proof (pow2_ge_0 (a - b)). lra.
Qed.
Lemma sq_dist_refl x : sq_dist x x = 0.
Proof. induction x as [|a x IH]; cbn [sq_dist]; [reflexivity|]. rewrite IH. ring. Qed.
Lemma sq_dist_zero x : forall y, List.length x = List.length y -> sq_dist x y = 0 -> x = y.
Proof.
  induction x as [|a x IH]; intros [|b y] HL H; cbn [sq_dist List.length] in *; try discriminate; auto.
  pose proof (sq_dist_nonneg x y). pose proof (pow2_ge_0 (a - b)).
  assert (sq_dist x y = 0) by lra. assert ((a - b) ^ 2 = 0) by lra.
  f_equal; [|apply IH; [congruence|assumption]]. assert (a - b = 0) by nra. lra.
Qed.

(** ** nearest is preserved by squaring nonnegative distances *)
Lemma nearest_square d d2 train A q k ans :
  (forall i, (i < List.length train)%nat -> 0 <= d q (nth i train []) /\ d2 q (nth i train []) = d q (nth i train []) ^ 2) ->
  nearest d train A q k ans ->
  nearest d2 train A q k (map (fun e => (fst e, snd e ^ 2)) ans).
Proof.
  intros Hd [HL [ND [HE [HS HM]]]]. unfold nearest.
  assert (MF : map fst (map (fun e : nat * R => (fst e, snd e ^ 2)) ans) = map fst ans)
    by (rewrite map_map; reflexivity).
  rewrite map_length, MF. split; [assumption|]. split; [assumption|]. split; [|split].
  - intros i x Hin. apply in_map_iff in Hin. destruct Hin as [[j y] [E Hin]]. injection E as <- <-.
    cbn [fst snd] in *. destruct (HE j y Hin) as [H1 [H2 H3]]. split; [assumption|]. split; [assumption|].
    change (y * (y * 1)) with (y ^ 2). rewrite H3. symmetry. apply Hd. assumption.
  - assert (Hnn : Forall (fun e : nat * R => 0 <= snd e) ans).
    { apply Forall_forall. intros [i x] Hin. destruct (HE i x Hin) as [H1 [_ ->]]. apply Hd. assumption. }
    clear - HS Hnn. induction HS as [|a l HS IH HF]; cbn [map]; [constructor|].
    inversion Hnn; subst. constructor; [auto|]. apply Forall_forall. intros e He.
    apply in_map_iff in He. destruct He as [e' [<- He']]. cbn [snd].
    rewrite Forall_forall in HF, H2. specialize (HF e' He'). specialize (H2 e' He').
    apply pow_incr. lra.
  - intros i j x Hi Ha Hn Hin. apply in_map_iff in Hin. destruct Hin as [[j' y] [E Hin]].
    injection E as <- <-. cbn [fst snd] in *. destruct (HE j' y Hin) as [H1 [H2 H3]].
    destruct (Hd i Hi) as [P1 P2]. destruct (Hd j' H1) as [Q1 Q2].
    rewrite P2. change (y * (y * 1)) with (y ^ 2). apply pow_incr. split; [rewrite H3; assumption|]. eapply HM; eauto.
Qed.

Lemma nearest_ext d d' train A q k ans :
  (forall i, (i < List.length train)%nat -> d q (nth i train []) = d' q (nth i train [])) ->
  nearest d train A q k ans -> nearest d' train A q k ans.
Proof.
  intros E [HL [ND [HE [HS HM]]]]. repeat split; auto.
  - apply (HE i x); auto.
  - apply (HE i x); auto.
  - destruct (HE i x H) as [H1 [_ ->]]. auto.
  - intros i j x Hi Ha Hn Hin. rewrite <- E by assumption. eapply HM; eauto.
Qed.

(** Dropping the first answer excludes the query itself when no other point is at distance 0. *)
Lemma nearest_tail d train q i k ans :
  nearest d train (fun _ => True) q (k + 1) ans -> (i < List.length train)%nat ->
  d q (nth i train []) = 0 ->
  (forall j, (j < List.length train)%nat -> j <> i -> 0 < d q (nth j train [])) ->
  nearest d train (fun j => j <> i) q k (tl ans).
Proof.
  intros [HL [ND [HE [HS HM]]]] Hi H0 Hpos.
  destruct ans as [|[j x] ans]; [cbn in HL; lia|]. cbn [tl].
  assert (Hin : In i (map fst ((j, x) :: ans))).
  { destruct (in_dec Nat.eq_dec i (map fst ((j, x) :: ans))) as [H|H]; [assumption|exfalso].
    pose proof (HM i j x Hi I H (or_introl eq_refl)) as Hle. rewrite H0 in Hle.
    destruct (HE j x (or_introl eq_refl)) as [Hj [_ Hx]].
    assert (j <> i) by (intros ->; apply H; left; reflexivity).
    specialize (Hpos j Hj H1). lra. }
  assert (Ej : j = i).
  { destruct (Nat.eq_dec j i) as [E|N]; [assumption|exfalso].
    cbn [map fst] in Hin. destruct Hin as [E|Hin]; [congruence|].
    apply in_map_iff in Hin. destruct Hin as [[i' y] [E Hin]]. cbn [fst] in E. subst i'.
    inversion HS as [|? ? _ HF]; subst. rewrite Forall_forall in HF. specialize (HF _ Hin). cbn [snd] in HF.
    destruct (HE i y (or_intror Hin)) as [_ [_ Hy]].
    destruct (HE j x (or_introl eq_refl)) as [Hj [_ Hx]]. specialize (Hpos j Hj N). lra. }
  subst j. inversion ND as [|? ? Hni ND']; subst.
  unfold nearest. split; [cbn in HL; lia|]. split; [assumption|]. split; [|split].
  - intros j y Hj. destruct (HE j y (or_intror Hj)) as [H1 [_ H2]]. split; [assumption|]. split; [|assumption].
    intros ->. apply Hni. apply in_map_iff. exists (i, y). auto.
  - inversion HS; assumption.
  - intros j j' y Hj Hne Hn Hin'. apply (HM j j' y Hj I).
    + cbn [map fst]. intros [E|H]; [congruence|contradiction].
    + right. assumption.
Qed.

(** With two points at distance zero the second answer is at distance zero too. *)
Lemma nearest_second_zero d train q i j k ans :
  nearest d train (fun _ => True) q (k + 2) ans ->
  (forall p, 0 <= d q p) ->
  (i < List.length train)%nat -> (j < List.length train)%nat -> i <> j ->
  d q (nth i train []) = 0 -> d q (nth j train []) = 0 ->
  exists t, In t (map fst (tl ans)) /\ (t < List.length train)%nat /\ d q (nth t train []) = 0.
Proof.
  intros [HL [ND [HE [HS HM]]]] Hnn Hi Hj Hne Zi Zj.
  destruct ans as [|[a x] [|[b y] ans]]; cbn [List.length] in HL; try lia. cbn [tl].
  exists b. split; [left; reflexivity|].
  destruct (HE b y (or_intror (or_introl eq_refl))) as [Hb [_ Ey]]. split; [assumption|].
  (* one of i, j differs from a *)
  assert (G : exists c, c <> a /\ (c < List.length train)%nat /\ d q (nth c train []) = 0).
  { destruct (Nat.eq_dec i a) as [E|N]; [exists j; subst; auto|exists i; auto]. }
  destruct G as [c [Nc [Hc Zc]]].
  destruct (in_dec Nat.eq_dec c (map fst ((a, x) :: (b, y) :: ans))) as [Hin|Hnin].
  - cbn [map fst] in Hin. destruct Hin as [E|[E|Hin]]; [congruence|subst; assumption|].
    apply in_map_iff in Hin. destruct Hin as [[c' z] [E Hin]]. cbn [fst] in E. subst c'.
    inversion HS as [|? ? HS' _]; subst. inversion HS' as [|? ? _ HF]; subst.
    rewrite Forall_forall in HF. specialize (HF _ Hin). cbn [snd] in HF.
    destruct (HE c z (or_intror (or_intror Hin))) as [_ [_ Ez]]. specialize (Hnn (nth b train [])). lra.
  - pose proof (HM c b y Hc I Hnin (or_intror (or_introl eq_refl))) as Hle.
    specialize (Hnn (nth b train [])). lra.
Qed.

(** ** Constructor keywords *)
Lemma dget_dset_same {V} (d : dict V) k v : dget (dset d k v) k = Some v.
Proof.
  induction d as [|[k' v'] d IH]; cbn; [rewrite String.eqb_refl; reflexivity|].
  destruct (String.eqb k' k) eqn:E; cbn; rewrite E; auto.
Qed.
Lemma dget_dset_other {V} (d : dict V) k v k' : k' <> k -> dget (dset d k v) k' = dget d k'.
Proof.
  intros N. induction d as [|[k0 v0] d IH]; cbn.
  - destruct (String.eqb k k') eqn:E; [apply String.eqb_eq in E; congruence|reflexivity].
  - destruct (String.eqb k0 k) eqn:E; cbn.
    + apply String.eqb_eq in E. subst. destruct (String.eqb k k') eqn:E'; [apply String.eqb_eq in E'; congruence|reflexivity].
    + destruct (String.eqb k0 k'); auto.
Qed.

Lemma exact_ctor_get n kw k : In k ["radius"; "algorithm"; "leaf_size"; "metric"; "p"; "metric_params"] ->
  dget (exact_ctor n kw) k = dget kw k.
Proof.
  intros Hk. unfold exact_ctor. cbv zeta.
  assert (N1 : k <> "n_jobs") by (intros ->; cbn in Hk; intuition discriminate).
  assert (N2 : k <> "n_neighbors") by (intros ->; cbn in Hk; intuition discriminate).
  rewrite !dget_dset_other by assumption.
  assert (F : forall d, dget (filter (fun e : string * nnval => existsb (String.eqb (fst e)) exact_keys) d) k = dget d k).
  { induction d as [|[k0 v0] d IH]; [reflexivity|]. cbn [filter fst dget].
    destruct (existsb (String.eqb k0) exact_keys) eqn:E; cbn [dget]; rewrite IH; [reflexivity|].
    destruct (String.eqb k0 k) eqn:E'; [|reflexivity]. apply String.eqb_eq in E'. subst k0.
    exfalso. cbn in Hk. repeat destruct Hk as [<-|Hk]; try (vm_compute in E; discriminate). destruct Hk. }
  apply F.
Qed.

(** The documented default (or its explicit spelling): Euclidean. *)
Definition euclidean_kw (kw : dict nnval) : Prop :=
  (dget kw "metric" = None \/ dget kw "metric" = Some (VStr "minkowski")) /\
  (dget kw "p" = None \/ dget kw "p" = Some (VNum 2)) /\ dget kw "metric_params" = None.

Lemma euclidean_ctor n kw : euclidean_kw kw ->
  is_minkowski2 (exact_ctor n kw) = true /\ dget (exact_ctor n kw) "metric_params" = None.
Proof.
  intros [Hm [Hp Hw]]. split; [|rewrite exact_ctor_get; [assumption|cbn; tauto]].
  unfold is_minkowski2, sk_metric, sk_p. rewrite !exact_ctor_get by (cbn; tauto).
  assert (Q : Reqb 2 2 = true) by (unfold Reqb; destruct (Req_EM_T 2 2); auto; contradiction).
  destruct Hm as [-> | ->]; destruct Hp as [-> | ->]; cbn [String.eqb]; rewrite Q; reflexivity.
Qed.

(** ** Queries *)
Section Q.
Variable knn : dict nnval -> list point -> point -> nat -> list (nat * R).
Variable hnsw : nnval -> list point -> point -> nat -> list (nat * R).
Variable dist : dict nnval -> point -> point -> R.
Hypothesis Hsk : sklearn_ok knn dist.

(** The distance the wrapper reports. *)
Definition reported (ctor : dict nnval) : point -> point -> R :=
  if is_minkowski2 ctor then fun x y => dist ctor x y ^ 2 else dist ctor.

Lemma sqrt_sq_dist x y : sqrt (sq_dist x y) ^ 2 = sq_dist x y.
Proof. rewrite <- Rsqr_pow2. apply Rsqr_sqrt. apply sq_dist_nonneg. Qed.

Lemma query_row_euclid train n kw q k : euclidean_kw kw -> (k <= List.length train)%nat ->
  nearest sq_dist train (fun _ => True) q k (query_row knn hnsw (mkNN train n (Exact (exact_ctor n kw))) q k).
Proof.
  intros He Hk. destruct (euclidean_ctor n kw He) as [E1 E2]. unfold query_row. cbn [nn_meth nn_train].
  rewrite E1. destruct Hsk as [H1 H2]. apply (nearest_square (dist (exact_ctor n kw))).
  - intros i Hi. rewrite (H2 _ E1 E2). split; [apply sqrt_pos|]. symmetry. apply sqrt_sq_dist.
  - apply H1. assumption.
Qed.

Lemma query_row_other train n ctor q k : is_minkowski2 ctor = false -> (k <= List.length train)%nat ->
  nearest (dist ctor) train (fun _ => True) q k (query_row knn hnsw (mkNN train n (Exact ctor)) q k).
Proof. intros E Hk. unfold query_row. cbn [nn_meth nn_train]. rewrite E. apply Hsk. assumption. Qed.


Lemma nn_init_exact en d n method kw w : lower method = "exact" ->
  nn_init en d n method kw = Ok w ->
  exists train, as_rows d = Ok train /\ w = mkNN train n (Exact (exact_ctor n kw)).
Proof.
  intros Hm H. unfold nn_init in H. destruct (as_rows d) as [rows|]; cbn [bind] in H; [|discriminate].
  rewrite Hm in H. cbn [String.eqb Ascii.eqb Bool.eqb] in H. destruct (List.length rows =? 0)%nat; [discriminate|].
  injection H as <-. exists rows. auto.
Qed.

Lemma get_nns_spec en d n method kw w test qs : lower method = "exact" -> euclidean_kw kw ->
  nn_init en d n method kw = Ok w -> as_rows test = Ok qs ->
  exists train, as_rows d = Ok train /\
  (if (List.length train <? n)%nat || (List.length qs =? 0)%nat || (n =? 0)%nat
   then get_nns knn hnsw w test = Err ValueError
   else exists I D, get_nns knn hnsw w test = Ok (I, D) /\
        List.length I = List.length qs /\ List.length D = List.length qs /\
        forall r, (r < List.length qs)%nat ->
          List.length (nth r I []) = n /\ List.length (nth r D []) = n /\
          nearest sq_dist train (fun _ => True) (nth r qs []) n (combine (nth r I []) (nth r D []))).
Proof.
  intros Hm He Hi Ht. destruct (nn_init_exact _ _ _ _ _ _ Hm Hi) as [train [Et ->]]. exists train.
  split; [assumption|]. unfold get_nns. rewrite Ht. cbn [bind nn_count]. unfold get_nns_k, refuses. cbn [nn_train nn_meth].
  destruct (Nat.ltb_spec (List.length train) n) as [Hlt|Hge]; [reflexivity|]. cbn [orb].
  destruct ((List.length qs =? 0)%nat || (n =? 0)%nat); [reflexivity|].
  do 2 eexists. split; [reflexivity|]. rewrite !map_length. split; [reflexivity|]. split; [reflexivity|].
  intros r Hr.
  set (w := mkNN train n (Exact (exact_ctor n kw))).
  assert (E1 : nth r (map (map fst) (map (fun q => query_row knn hnsw w q n) qs)) [] =
               map fst (query_row knn hnsw w (nth r qs []) n)).
  { rewrite map_map. rewrite (nth_indep _ [] (map fst (query_row knn hnsw w [] n))) by (rewrite map_length; assumption).
    rewrite (map_nth (fun q => map fst (query_row knn hnsw w q n)) qs []). reflexivity. }
  assert (E2 : nth r (map (map snd) (map (fun q => query_row knn hnsw w q n) qs)) [] =
               map snd (query_row knn hnsw w (nth r qs []) n)).
  { rewrite map_map. rewrite (nth_indep _ [] (map snd (query_row knn hnsw w [] n))) by (rewrite map_length; assumption).
    rewrite (map_nth (fun q => map snd (query_row knn hnsw w q n)) qs []). reflexivity. }
  rewrite E1, E2, combine_fst_snd, !map_length.
  pose proof (query_row_euclid train n kw (nth r qs []) n He Hge) as H. fold w in H.
  split; [apply H|]. split; [apply H|exact H].
Qed.

Lemma get_nns_other en d n method kw w test qs : lower method = "exact" ->
  is_minkowski2 (exact_ctor n kw) = false ->
  nn_init en d n method kw = Ok w -> as_rows test = Ok qs ->
  exists train, as_rows d = Ok train /\
  ((1 <= n <= List.length train)%nat -> (1 <= List.length qs)%nat -> exists I D, get_nns knn hnsw w test = Ok (I, D) /\
        List.length I = List.length qs /\ List.length D = List.length qs /\
        forall r, (r < List.length qs)%nat ->
          nearest (dist (exact_ctor n kw)) train (fun _ => True) (nth r qs []) n
            (combine (nth r I []) (nth r D []))).
Proof.
  intros Hm He Hi Ht. destruct (nn_init_exact _ _ _ _ _ _ Hm Hi) as [train [Et ->]]. exists train.
  split; [assumption|]. intros [Hpos Hge] Hqs. unfold get_nns. rewrite Ht. cbn [bind nn_count]. unfold get_nns_k, refuses. cbn [nn_train nn_meth].
  destruct (Nat.ltb_spec (List.length train) n) as [Hlt|_]; [lia|]. cbn [orb].
  destruct (Nat.eqb_spec (List.length qs) 0) as [Z|_]; [lia|]. destruct (Nat.eqb_spec n 0) as [Z|_]; [lia|]. cbn [orb].
  do 2 eexists. split; [reflexivity|]. rewrite !map_length. split; [reflexivity|]. split; [reflexivity|].
  intros r Hr.
  set (w := mkNN train n (Exact (exact_ctor n kw))).
  assert (E1 : nth r (map (map fst) (map (fun q => query_row knn hnsw w q n) qs)) [] =
               map fst (query_row knn hnsw w (nth r qs []) n)).
  { rewrite map_map. rewrite (nth_indep _ [] (map fst (query_row knn hnsw w [] n))) by (rewrite map_length; assumption).
    rewrite (map_nth (fun q => map fst (query_row knn hnsw w q n)) qs []). reflexivity. }
  assert (E2 : nth r (map (map snd) (map (fun q => query_row knn hnsw w q n) qs)) [] =
               map snd (query_row knn hnsw w (nth r qs []) n)).
  { rewrite map_map. rewrite (nth_indep _ [] (map snd (query_row knn hnsw w [] n))) by (rewrite map_length; assumption).
    rewrite (map_nth (fun q => map snd (query_row knn hnsw w q n)) qs []). reflexivity. }
  rewrite E1, E2, combine_fst_snd. apply query_row_other; assumption.
Qed.

(** get_batch_nns answers row by row. *)
Lemma get_batch_nns_rows w batch : (nn_count w + 1 <= List.length (nn_train w))%nat -> batch <> [] ->
  (forall i, In i batch -> (i < List.length (nn_train w))%nat) ->
  get_batch_nns knn hnsw w batch =
  Ok (map (fun i => tl (map fst (query_row knn hnsw w (nth i (nn_train w) []) (nn_count w + 1)))) batch,
      map (fun i => tl (map snd (query_row knn hnsw w (nth i (nn_train w) []) (nn_count w + 1)))) batch).
Proof.
  intros Hn NB Hb. unfold get_batch_nns.
  assert (F : forallb (fun i => (i <? List.length (nn_train w))%nat) batch = true).
  { apply forallb_forall. intros i Hi. apply Nat.ltb_lt. auto. }
  rewrite F. unfold get_nns_k. destruct (Nat.ltb_spec (List.length (nn_train w)) (nn_count w + 1)); [lia|]. cbn [orb].
  assert (RF : forall f, refuses w (map f batch) (nn_count w + 1) = false).
  { intros f. unfold refuses. rewrite map_length. destruct (nn_meth w); [|reflexivity].
    destruct batch; [congruence|]. cbn [List.length Nat.eqb orb]. apply Nat.eqb_neq. lia. }
  rewrite RF.
  cbn [bind fst snd]. rewrite !map_map. reflexivity.
Qed.

Lemma get_batch_nns_inv w batch I D : get_batch_nns knn hnsw w batch = Ok (I, D) ->
  (forall i, In i batch -> (i < List.length (nn_train w))%nat) /\
  (nn_count w + 1 <= List.length (nn_train w))%nat.
Proof.
  unfold get_batch_nns. destruct (forallb _ batch) eqn:F; [|discriminate].
  unfold get_nns_k. destruct (Nat.ltb_spec (List.length (nn_train w)) (nn_count w + 1)); [discriminate|].
  intros _. split; [|lia]. intros i Hi. rewrite forallb_forall in F. apply Nat.ltb_lt, F, Hi.
Qed.

Lemma tl_map {A B} (f : A -> B) l : tl (map f l) = map f (tl l).
Proof. destruct l; reflexivity. Qed.

Lemma nth_map {A B} (f : A -> B) l d d' i : (i < List.length l)%nat -> nth i (map f l) d' = f (nth i l d).
Proof. intros H. rewrite (nth_indep _ d' (f d)) by (rewrite map_length; assumption). apply map_nth. Qed.

Lemma get_batch_nns_spec en d n method kw w batch : lower method = "exact" -> euclidean_kw kw ->
  nn_init en d n method kw = Ok w ->
  exists train, as_rows d = Ok train /\
  ((n + 1 <= List.length train)%nat -> batch <> [] -> (forall i, In i batch -> (i < List.length train)%nat) ->
   (forall i j, (i < List.length train)%nat -> (j < List.length train)%nat -> i <> j ->
      sq_dist (nth i train []) (nth j train []) <> 0) ->
   exists I D, get_batch_nns knn hnsw w batch = Ok (I, D) /\
     List.length I = List.length batch /\ List.length D = List.length batch /\
     forall r, (r < List.length batch)%nat ->
       nearest sq_dist train (fun j => j <> nth r batch O) (nth (nth r batch O) train []) n
         (combine (nth r I []) (nth r D []))).
Proof.
  intros Hm He Hi. destruct (nn_init_exact _ _ _ _ _ _ Hm Hi) as [train [Et ->]]. exists train.
  split; [assumption|]. intros Hn NB Hb Hdist. rewrite get_batch_nns_rows by assumption. cbn [nn_train nn_count].
  do 2 eexists. split; [reflexivity|]. rewrite !map_length. split; [reflexivity|]. split; [reflexivity|].
  intros r Hr. rewrite !(nth_map _ batch O) by assumption. rewrite !tl_map, combine_fst_snd.
  assert (Hin : (nth r batch O < List.length train)%nat) by (apply Hb, nth_In; assumption).
  apply nearest_tail.
  - exact (query_row_euclid train n kw _ (n + 1) He Hn).
  - assumption.
  - apply sq_dist_refl.
  - intros j Hj Hne. pose proof (sq_dist_nonneg (nth (nth r batch O) train []) (nth j train [])).
    specialize (Hdist (nth r batch O) j Hin Hj ltac:(congruence)).
    destruct H as [H|H]; [exact H|]. exfalso. apply Hdist. symmetry. exact H.
Qed.

(** With two equal rows, some training point is its own neighbour. *)
Lemma get_batch_nns_dup en d n method kw w f i j : lower method = "exact" -> euclidean_kw kw ->
  nn_init en d n method kw = Ok w -> (1 <= n)%nat ->
  forall train, as_rows d = Ok train -> rectangular f train -> (n + 1 <= List.length train)%nat ->
  (i < List.length train)%nat -> (j < List.length train)%nat -> i <> j -> nth i train [] = nth j train [] ->
  exists t I D, (t < List.length train)%nat /\
    get_batch_nns knn hnsw w [t] = Ok ([I], [D]) /\ In t I.
Proof.
  intros Hm He Hi Hn1 train Et HR Hn Hli Hlj Hne Heq.
  destruct (nn_init_exact _ _ _ _ _ _ Hm Hi) as [train' [Et' ->]]. rewrite Et in Et'. injection Et' as <-.
  set (w := mkNN train n (Exact (exact_ctor n kw))). set (q := nth i train []).
  pose proof (query_row_euclid train n kw q (n + 1) He Hn) as HN. fold w in HN.
  destruct (nearest_second_zero sq_dist train q i j (n - 1) (query_row knn hnsw w q (n + 1))) as [t [Ht [Hlt Hz]]].
  - replace (n - 1 + 2)%nat with (n + 1)%nat by lia. exact HN.
  - intros p. apply sq_dist_nonneg.
  - assumption.
  - assumption.
  - assumption.
  - apply sq_dist_refl.
  - unfold q. rewrite Heq. apply sq_dist_refl.
  - assert (Eq : q = nth t train []).
    { apply sq_dist_zero; [|assumption]. unfold q.
      rewrite (HR (nth i train [])) by (apply nth_In; assumption).
      rewrite (HR (nth t train [])) by (apply nth_In; assumption). reflexivity. }
    exists t. do 2 eexists. split; [assumption|].
    rewrite get_batch_nns_rows; [|exact Hn|discriminate|intros x [<-|[]]; exact Hlt].
    cbn [map]. split; [reflexivity|]. cbn [nn_train nn_count]. change (nn_train w) with train.
    change (nn_count w) with n. rewrite <- Eq, tl_map. exact Ht.
Qed.
End Q.
