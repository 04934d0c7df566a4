(** Proofs about the model-making drivers. *)
From Coq Require Import Lia.
From Verif Require Import Base BaseFacts DriverModel.

Section D.
Variables spec model : Type.
Variable make : spec -> result model.
Variable fixed : model -> result bool.
Variables lookup batch : result unit.
Variable opt : option nat -> model -> result model.
Variable scale : model -> result model.
Variable mscale : list model -> result (list model).
Notation dreg := (decide_and_make_regressor spec model make fixed lookup batch opt scale mscale).
Notation dcla := (decide_and_make_classifier spec model make fixed lookup batch opt mscale).

Lemma sequence_ok {A} (l : list (result A)) r : sequence l = Ok r -> Forall2 (fun x y => x = Ok y) l r.
Proof.
  revert r. induction l as [|x l IH]; cbn; intros r H.
  - injection H as <-. constructor.
  - destruct x as [a|]; cbn in H; [|discriminate]. destruct (sequence l) as [l'|]; cbn in H; [|discriminate].
    injection H as <-. constructor; auto.
Qed.

Lemma sequence_of {A} (l : list (result A)) r : Forall2 (fun x y => x = Ok y) l r -> sequence l = Ok r.
Proof. induction 1 as [|x y l l' -> H IH]; cbn; auto. rewrite IH. reflexivity. Qed.

Lemma Forall2_len {A B} (P : A -> B -> Prop) l l' : Forall2 P l l' -> List.length l = List.length l'.
Proof. induction 1; cbn; auto. Qed.

Lemma make_length ks ms : sequence (map make ks) = Ok ms -> List.length ms = List.length ks.
Proof.
  intros H. apply sequence_ok in H. apply Forall2_len in H. rewrite map_length in H. auto.
Qed.

Lemma opt_each_length i ms ms' : opt_each model fixed opt i ms = Ok ms' -> List.length ms' = List.length ms.
Proof.
  revert i ms'. induction ms as [|m ms IH]; cbn; intros i ms' H.
  - injection H as <-. reflexivity.
  - destruct (fixed m) as [f|]; cbn in H; [|discriminate].
    destruct (if f then Ok m else opt (Some i) m) as [m'|]; cbn in H; [|discriminate].
    destruct (opt_each _ _ _ (S i) ms) eqn:E; cbn in H; [|discriminate]. injection H as <-. cbn. f_equal. eauto.
Qed.

Lemma opt_each_nth i ms ms' j m : opt_each model fixed opt i ms = Ok ms' -> nth_error ms j = Some m ->
  exists m', nth_error ms' j = Some m' /\
    ((fixed m = Ok true /\ m' = m) \/ (fixed m = Ok false /\ opt (Some (i + j)) m = Ok m')).
Proof.
  revert i ms' j. induction ms as [|m0 ms IH]; cbn; intros i ms' j H Hj; [destruct j; discriminate|].
  destruct (fixed m0) as [f|] eqn:Ef; cbn in H; [|discriminate].
  destruct (if f then Ok m0 else opt (Some i) m0) as [m'|] eqn:Eo; cbn in H; [|discriminate].
  destruct (opt_each _ _ _ (S i) ms) eqn:E; cbn in H; [|discriminate]. injection H as <-.
  destruct j as [|j].
  - cbn in Hj. injection Hj as <-. exists m'. split; auto. rewrite Nat.add_0_r.
    destruct f; [left|right]; split; auto. congruence.
  - destruct (IH (S i) _ j E Hj) as (m'' & H1 & H2). exists m''. split; auto.
    replace (i + S j) with (S i + j) by lia. auto.
Qed.

(** Kinds. *)
Lemma regressor_kind sh k r : dreg sh k = Ok r ->
  match k with
  | KDict _ => exists m, r = Univariate m
  | KList ks | KTuple ks => exists ms n, r = Multivariate ms /\ sh = [n; List.length ks] /\
      ((forall l l', mscale l = Ok l' -> List.length l' = List.length l) -> List.length ms = List.length ks)
  | KOther => False
  end.
Proof.
  destruct k as [d|ks|ks|]; cbn [decide_and_make_regressor]; try discriminate.
  - destruct (make_regressor _ _ _ _ _ _ _ _ _) as [m|]; cbn; [|discriminate]. intros H. injection H as <-. eauto.
  - unfold make_multivariate_regressor, make_multivariate.
    destruct sh as [|n [|rc [|]]]; try discriminate. destruct (Nat.eqb_spec rc (List.length ks)) as [->|]; cbn [negb]; [|discriminate].
    destruct lookup; cbn [bind]; [|discriminate]. destruct (sequence (map make ks)) as [ms|] eqn:E; cbn [bind]; [|discriminate].
    destruct (all_fixed _ _ ms) as [[|]|]; cbn [bind rmap]; try discriminate.
    + intros H. injection H as <-. exists ms, n. split; auto. split; auto. intros _. eapply make_length; eauto.
    + destruct batch; cbn [bind]; [|discriminate]. destruct (opt_each _ _ _ 0 ms) as [ms'|] eqn:E'; cbn [bind]; [|discriminate].
      destruct (mscale ms') as [ms''|] eqn:Es; cbn [rmap]; [|discriminate]. intros H. injection H as <-.
      exists ms'', n. split; auto. split; auto. intros Hl. rewrite (Hl _ _ Es), (opt_each_length _ _ _ E'). eapply make_length; eauto.
  - unfold make_multivariate_regressor, make_multivariate.
    destruct sh as [|n [|rc [|]]]; try discriminate. destruct (Nat.eqb_spec rc (List.length ks)) as [->|]; cbn [negb]; [|discriminate].
    destruct lookup; cbn [bind]; [|discriminate]. destruct (sequence (map make ks)) as [ms|] eqn:E; cbn [bind]; [|discriminate].
    destruct (all_fixed _ _ ms) as [[|]|]; cbn [bind rmap]; try discriminate.
    + intros H. injection H as <-. exists ms, n. split; auto. split; auto. intros _. eapply make_length; eauto.
    + destruct batch; cbn [bind]; [|discriminate]. destruct (opt_each _ _ _ 0 ms) as [ms'|] eqn:E'; cbn [bind]; [|discriminate].
      destruct (mscale ms') as [ms''|] eqn:Es; cbn [rmap]; [|discriminate]. intros H. injection H as <-.
      exists ms'', n. split; auto. split; auto. intros Hl. rewrite (Hl _ _ Es), (opt_each_length _ _ _ E'). eapply make_length; eauto.
Qed.

Lemma classifier_kind sh k r : dcla sh k = Ok r ->
  match k with
  | KDict _ => exists m, r = Univariate m
  | KList ks => exists ms n, r = Multivariate ms /\ sh = [n; List.length ks] /\ List.length ms = List.length ks
  | KTuple _ | KOther => False
  end.
Proof.
  destruct k as [d|ks|ks|]; cbn [decide_and_make_classifier]; try discriminate.
  - destruct (make_classifier _ _ _ _ _ _ _ _) as [m|]; cbn; [|discriminate]. intros H. injection H as <-. eauto.
  - unfold make_multivariate_classifier, make_multivariate.
    destruct sh as [|n [|rc [|]]]; try discriminate. destruct (Nat.eqb_spec rc (List.length ks)) as [->|]; cbn [negb]; [|discriminate].
    destruct lookup; cbn [bind]; [|discriminate]. destruct (sequence (map make ks)) as [ms|] eqn:E; cbn [bind]; [|discriminate].
    destruct (all_fixed _ _ ms) as [[|]|]; cbn [bind rmap]; try discriminate.
    + intros H. injection H as <-. exists ms, n. split; auto. split; auto. eapply make_length; eauto.
    + destruct batch; cbn [bind]; [|discriminate]. destruct (opt_each _ _ _ 0 ms) as [ms'|] eqn:E'; cbn [bind rmap]; [|discriminate].
      intros H. injection H as <-. exists ms', n. split; auto. split; auto. rewrite (opt_each_length _ _ _ E'). eapply make_length; eauto.
Qed.

(** Counts. *)
Lemma mismatch sh ks : (forall n, sh <> [n; List.length ks]) ->
  dreg sh (KList ks) = Err ValueError /\ dreg sh (KTuple ks) = Err ValueError /\ dcla sh (KList ks) = Err ValueError.
Proof.
  intros H. cbn [decide_and_make_regressor decide_and_make_classifier].
  unfold make_multivariate_regressor, make_multivariate_classifier, make_multivariate.
  destruct sh as [|n [|rc [|]]]; auto. destruct (Nat.eqb_spec rc (List.length ks)) as [->|]; [exfalso; eapply H; eauto|auto].
Qed.

(** A fixed univariate model comes back exactly as constructed. *)
Lemma fixed_univariate sh d m : lookup = Ok tt -> make d = Ok m -> fixed m = Ok true ->
  dreg sh (KDict d) = Ok (Univariate m) /\ dcla sh (KDict d) = Ok (Univariate m).
Proof.
  intros H1 H2 H3. cbn. unfold make_regressor, make_classifier. rewrite H1; cbn. rewrite H2; cbn. rewrite H3. auto.
Qed.

Lemma all_fixed_true ms : (forall m, In m ms -> fixed m = Ok true) -> all_fixed model fixed ms = Ok true.
Proof.
  intros H. unfold all_fixed. rewrite (sequence_of _ (repeat true (List.length ms))).
  - cbn. f_equal. apply forallb_forall. intros b Hb. apply repeat_spec in Hb. auto.
  - induction ms as [|m ms IH]; cbn; constructor; [apply H; cbn; auto|]. apply IH. intros; apply H; cbn; auto.
Qed.

Lemma fixed_multivariate n ks ms : lookup = Ok tt -> sequence (map make ks) = Ok ms ->
  (forall m, In m ms -> fixed m = Ok true) ->
  dreg [n; List.length ks] (KList ks) = Ok (Multivariate ms) /\
  dreg [n; List.length ks] (KTuple ks) = Ok (Multivariate ms) /\
  dcla [n; List.length ks] (KList ks) = Ok (Multivariate ms).
Proof.
  intros H1 H2 H3. cbn [decide_and_make_regressor decide_and_make_classifier].
  unfold make_multivariate_regressor, make_multivariate_classifier, make_multivariate.
  rewrite Nat.eqb_refl, H1; cbn [negb bind]. rewrite H2; cbn [bind]. rewrite all_fixed_true by auto. auto.
Qed.

(** In a mixture, the classifier leaves the fixed submodels alone and optimizes each other one
    on its own response. *)
Lemma mixture_classifier n ks ms out j m : sequence (map make ks) = Ok ms -> nth_error ms j = Some m ->
  dcla [n; List.length ks] (KList ks) = Ok (Multivariate out) ->
  exists m', nth_error out j = Some m' /\
    ((fixed m = Ok true /\ m' = m) \/
     (fixed m = Ok false /\ (opt (Some j) m = Ok m'))).
Proof.
  intros H2 Hj. cbn [decide_and_make_classifier]. unfold make_multivariate_classifier, make_multivariate.
  rewrite Nat.eqb_refl. destruct lookup; cbn [negb bind]; [|discriminate]. rewrite H2; cbn [bind].
  destruct (all_fixed _ _ ms) as [[|]|] eqn:E; cbn [bind rmap]; try discriminate.
  - intros H. injection H as <-. exists m. split; auto. left. split; auto.
    unfold all_fixed in E. destruct (sequence (map fixed ms)) as [fs|] eqn:Ef; cbn in E; [|discriminate].
    injection E as E. apply sequence_ok in Ef. clear H2. revert j Hj fs Ef E.
    induction ms as [|m0 ms IH]; intros j Hj fs Ef E; [destruct j; discriminate|].
    inversion Ef as [|x y l l' Hx Hl]; subst. cbn in E. apply andb_true_iff in E as [-> E].
    destruct j as [|j]; [cbn in Hj; injection Hj as <-; auto|]. eapply IH; eauto.
  - destruct batch; cbn [bind]; [|discriminate]. destruct (opt_each _ _ _ 0 ms) as [ms'|] eqn:E'; cbn [bind rmap]; [|discriminate].
    intros H. injection H as <-. destruct (opt_each_nth 0 ms ms' j m E' Hj) as (m' & A & B). exists m'. auto.
Qed.

(** A tuple of specifications, one per response: regression works, classification raises. *)
Lemma tuple_refuted n ks ms : lookup = Ok tt -> sequence (map make ks) = Ok ms ->
  (forall m, In m ms -> fixed m = Ok true) ->
  dreg [n; List.length ks] (KTuple ks) = Ok (Multivariate ms) /\
  dcla [n; List.length ks] (KTuple ks) = Err ValueError.
Proof. intros H1 H2 H3. split; [apply fixed_multivariate; auto|reflexivity]. Qed.

(** An unfixed univariate model: optimized; the regression driver then sets its scale. *)
Lemma unfixed_univariate sh d m m' : lookup = Ok tt -> make d = Ok m -> fixed m = Ok false -> batch = Ok tt -> opt None m = Ok m' ->
  dcla sh (KDict d) = Ok (Univariate m') /\ dreg sh (KDict d) = rmap Univariate (scale m').
Proof.
  intros H1 H2 H3 H4 H5. cbn. unfold make_regressor, make_classifier. rewrite H1; cbn [bind]. rewrite H2; cbn [bind]. rewrite H3; cbn [bind].
  rewrite H4; cbn [bind]. rewrite H5. auto.
Qed.

Lemma mixture_regressor n ks ms out : sequence (map make ks) = Ok ms -> (exists m, In m ms /\ fixed m = Ok false) ->
  dreg [n; List.length ks] (KList ks) = Ok (Multivariate out) \/ dreg [n; List.length ks] (KTuple ks) = Ok (Multivariate out) ->
  exists ms', List.length ms' = List.length ms /\ mscale ms' = Ok out /\
    forall j m, nth_error ms j = Some m -> exists m', nth_error ms' j = Some m' /\
      ((fixed m = Ok true /\ m' = m) \/ (fixed m = Ok false /\ opt (Some j) m = Ok m')).
Proof.
  intros H2 (mf & If & Ff) H. assert (H' : rmap Multivariate (make_multivariate_regressor spec model make fixed lookup batch opt mscale [n; List.length ks] ks) = Ok (Multivariate out))
    by (destruct H; exact H). clear H. revert H'.
  unfold make_multivariate_regressor, make_multivariate.
  rewrite Nat.eqb_refl. destruct lookup; cbn [negb bind]; [|discriminate]. rewrite H2; cbn [bind].
  destruct (all_fixed _ _ ms) as [[|]|] eqn:E; cbn [bind rmap]; try discriminate.
  - exfalso. unfold all_fixed in E. destruct (sequence (map fixed ms)) as [fs|] eqn:Ef; cbn in E; [|discriminate].
    injection E as E. apply sequence_ok in Ef. clear H2. revert If fs Ef E.
    induction ms as [|m0 ms IH]; intros If fs Ef E; [destruct If|].
    inversion Ef as [|x y l l' Hx Hl]; subst. cbn in E. apply andb_true_iff in E as [-> E].
    destruct If as [->|If]; [congruence|]. eapply IH; eauto.
  - destruct batch; cbn [bind]; [|discriminate]. destruct (opt_each _ _ _ 0 ms) as [ms'|] eqn:E'; cbn [bind rmap]; [|discriminate].
    destruct (mscale ms') as [out'|] eqn:Es; cbn [rmap]; [|discriminate]. intros H. injection H as <-.
    exists ms'. split; [eapply opt_each_length; eauto|]. split; [auto|]. intros j m Hj.
    destruct (opt_each_nth 0 ms ms' j m E' Hj) as (m' & A & B). exists m'. auto.
Qed.
End D.
