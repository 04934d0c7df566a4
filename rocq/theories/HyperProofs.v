From Coq Require Import Lia Lra.
From Verif Require Import Base BaseFacts HyperModel HyperSpec.
Local Open Scope R_scope.
Local Open Scope string_scope.

Lemma nlt_iff a b : num_ltb a b = true <-> nlt a b.
Proof.
  split.
  - destruct a, b; simpl; intros H; try discriminate; try constructor.
    apply Rltb_true; auto.
  - intros H; destruct H; simpl; auto. apply Rltb_true; auto.
Qed.

Lemma nlt_false a b : num_ltb a b = false <-> ~ nlt a b.
Proof.
  rewrite <- nlt_iff. destruct (num_ltb a b); split; intros H; auto; try discriminate.
  exfalso; apply H; auto.
Qed.

Lemma shift_addR x d : num_addR x d = shift x d.
Proof. destruct x; reflexivity. Qed.

Lemma check_range_ok b f v w :
  check_range b f v = Ok w <-> w = v /\ in_range (if f then None else Some b) v.
Proof.
  unfold check_range, in_range, num_gtb. destruct f; simpl.
  - split; [intros H; inversion H; subst; repeat split; auto | intros [-> _]; auto].
  - destruct b as [lo hi]; simpl. rewrite (shift_addR lo), (shift_addR hi). unfold tol.
    destruct (num_ltb v (shift lo (- / 100000))) eqn:E1;
      [split; [intros H; discriminate H|intros [_ [H _]]; exfalso; apply H; apply nlt_iff; auto]|].
    destruct (num_ltb (shift hi (/ 100000)) v) eqn:E2;
      [split; [intros H; discriminate H|intros [_ [_ H]]; exfalso; apply H; apply nlt_iff; auto]|].
    apply nlt_false in E1. apply nlt_false in E2.
    split; [intros H; inversion H; subst; repeat split; auto | intros [-> _]; auto].
Qed.

Lemma check_range_err b f v e : check_range b f v = Err e -> e = ValueError.
Proof.
  unfold check_range. destruct f; [discriminate|].
  destruct (num_ltb _ _); [intros H; inversion H; auto|].
  destruct (num_gtb _ _); [intros H; inversion H; auto|discriminate].
Qed.

Definition opt_bounds (bf : (num * num) * bool) : option (num * num) :=
  if snd bf then None else Some (fst bf).

Lemma set_bounds_ok b bf :
  set_bounds b = Ok bf <->
  bounds_mean b (opt_bounds bf) /\ (snd bf = true -> fst bf = (Fin 0, Fin 0)).
Proof.
  split.
  - destruct b; simpl; try discriminate.
    + destruct (String.eqb_spec s "fixed"); [|discriminate].
      intros H; inversion H; subst; simpl. split; [constructor|auto].
    + destruct (Nat.eqb_spec (List.length l) 2) as [El|El]; simpl; [|discriminate].
      destruct l as [|a [|b [|c l]]]; simpl in El; try discriminate. simpl.
      destruct a; simpl; try discriminate; destruct b; simpl; try discriminate.
      destruct (num_gtb x x0) eqn:G; [discriminate|].
      intros H; inversion H; subst; simpl. split; [|discriminate].
      unfold opt_bounds; simpl. constructor; [constructor|]. apply nlt_false; auto.
    + destruct (Nat.eqb_spec (List.length l) 2) as [El|El]; simpl; [|discriminate].
      destruct l as [|a [|b [|c l]]]; simpl in El; try discriminate. simpl.
      destruct a; simpl; try discriminate; destruct b; simpl; try discriminate.
      destruct (num_gtb x x0) eqn:G; [discriminate|].
      intros H; inversion H; subst; simpl. split; [|discriminate].
      unfold opt_bounds; simpl. constructor; [constructor|]. apply nlt_false; auto.
    + destruct (Nat.eqb n 2); simpl; discriminate.
    + destruct (Nat.eqb_spec (List.length l) 2) as [El|El]; simpl; [|discriminate].
      destruct l as [|[k0 a] [|[k1 b] [|c l]]]; simpl in El; try discriminate. cbn [find fst snd].
      change (Z.of_nat 0) with 0%Z. change (Z.of_nat 1) with 1%Z.
      destruct (Z.eqb_spec k0 0) as [->|N0]; cbn [bind snd].
      * destruct (is_number a) eqn:Na; [|discriminate]. cbn [negb].
        replace (0 =? 1)%Z with false by reflexivity.
        destruct (Z.eqb_spec k1 1) as [->|N1]; cbn [bind]; [|discriminate].
        cbn [snd]. destruct a; try discriminate; destruct b; simpl; try discriminate.
        destruct (num_gtb x x0) eqn:G; [discriminate|].
        intros H; inversion H; subst; simpl. split; [|discriminate].
        unfold opt_bounds; simpl. apply bm_pair; [apply po_dict01|]. apply nlt_false; auto.
      * destruct (Z.eqb_spec k1 0) as [->|N1]; cbn [bind]; [|discriminate]. cbn [snd].
        destruct (is_number b) eqn:Nb; [|discriminate]. cbn [negb].
        destruct (Z.eqb_spec k0 1) as [->|N1]; cbn [bind]; [|discriminate].
        cbn [snd]. destruct b; try discriminate; destruct a; simpl; try discriminate.
        destruct (num_gtb x x0) eqn:G; [discriminate|].
        intros H; inversion H; subst; simpl. split; [|discriminate].
        unfold opt_bounds; simpl. apply bm_pair; [apply po_dict10|]. apply nlt_false; auto.
  - destruct bf as [[lo hi] f]. unfold opt_bounds; simpl. intros [H1 H2].
    destruct f.
    + inversion H1; subst. simpl. rewrite (H2 eq_refl). reflexivity.
    + inversion H1 as [|b' lo' hi' Hp Hn]; subst.
      apply nlt_false in Hn.
      inversion Hp; subst; simpl; unfold num_gtb; rewrite Hn; reflexivity.
Qed.

Lemma sample_val_err e b f s er :
  sample_val e b f s = Err er -> er = ValueError \/ er = OverflowError.
Proof.
  unfold sample_val. destruct f; [intros H; inversion H; auto|].
  destruct (String.eqb s "sample").
  - destruct b as [[] []]; simpl; intros H; inversion H; auto.
  - destruct (String.eqb s "log_sample"); [|intros H; inversion H; auto].
    destruct (np_log (fst b)); simpl; try (intros H; inversion H; auto; fail).
    destruct (np_log (snd b)); simpl; intros H; inversion H; auto.
Qed.

Lemma np_log_fin x r : np_log x = Fin r <-> exists y, x = Fin y /\ 0 < y /\ r = ln y.
Proof.
  destruct x; simpl; split; intros H; try discriminate; try (destruct H as [y [Hy _]]; discriminate).
  - destruct (Rltb r0 0) eqn:E; [discriminate|]. apply Rltb_false in E.
    destruct (Reqb r0 0) eqn:E'; [discriminate|]. apply Reqb_false in E'.
    inversion H; subst. exists r0; repeat split; auto; lra.
  - destruct H as [y [Hy [Hp ->]]]. inversion Hy; subst.
    replace (Rltb y 0) with false by (symmetry; apply Rltb_false; lra).
    replace (Reqb y 0) with false by (symmetry; apply Reqb_false; lra). auto.
Qed.

Lemma set_val_ok e bf v x :
  root e = None ->
  set_val e (fst bf) (snd bf) v = Ok x <-> value_means e (opt_bounds bf) v x.
Proof.
  intros Hroot. destruct bf as [[lo hi] f]; unfold opt_bounds; cbn -[check_range].
  assert (IR : forall y z, check_range (lo, hi) f y = Ok z <->
                     z = y /\ in_range (if f then None else Some (lo, hi)) y)
    by (intros; apply check_range_ok).
  split.
  - destruct v; cbn -[check_range]; try discriminate.
    + intros H; apply IR in H. destruct H as [-> H]. constructor; auto.
    + unfold sample_val, bcast. rewrite Hroot.
      destruct f; [discriminate|]. cbn -[check_range].
      destruct (String.eqb_spec s "sample") as [->|Ns].
      * destruct lo, hi; cbn -[check_range]; try discriminate. intros H; apply IR in H. destruct H as [-> H].
        econstructor; eauto.
      * destruct (String.eqb_spec s "log_sample") as [->|Nl]; [|discriminate].
        destruct (np_log lo) eqn:E1; cbn -[check_range]; try discriminate.
        destruct (np_log hi) eqn:E2; cbn -[check_range]; try discriminate.
        apply np_log_fin in E1. apply np_log_fin in E2.
        destruct E1 as [a [-> [Ha ->]]], E2 as [b [-> [Hb ->]]].
        intros H; apply IR in H. destruct H as [-> H].
        eapply vm_log_sample; eauto.
  - intros H. inversion H as [x' Hr|a b x' Hb Hro Hx Hr|a b x' Hb Ha Hb' Hro Hx Hr]; subst; cbn -[check_range].
    + apply IR; auto.
    + destruct f; [discriminate|]. inversion Hb; subst.
      unfold sample_val, bcast. cbn -[check_range]. rewrite Hroot. cbn -[check_range]. apply IR; auto.
    + destruct f; [discriminate|]. inversion Hb; subst.
      unfold sample_val, bcast. rewrite Hroot.
      replace (String.eqb "log_sample" "sample") with false by reflexivity.
      rewrite String.eqb_refl. cbn [fst snd].
      rewrite (proj2 (np_log_fin (Fin a) (ln a))) by eauto.
      rewrite (proj2 (np_log_fin (Fin b) (ln b))) by eauto.
      cbn -[check_range]. apply IR; auto.
Qed.

Lemma param_init_ok e v b p :
  root e = None ->
  param_init e v b = Ok p <->
  exists bo, bounds_mean b bo /\ value_means e bo v (p_val p) /\
    p_fixed p = match bo with None => true | Some _ => false end /\
    p_bounds p = match bo with None => (Fin 0, Fin 0) | Some q => q end.
Proof.
  intros Hroot. unfold param_init. rewrite bind_ok. split.
  - intros [bf [Hb H]]. apply bind_ok in H. destruct H as [x [Hx H]]. inversion H; subst; cbn -[check_range].
    apply set_bounds_ok in Hb. destruct Hb as [Hb1 Hb2].
    apply set_val_ok in Hx; auto.
    exists (opt_bounds bf). unfold opt_bounds in *. destruct bf as [q f]; simpl in *.
    destruct f; repeat split; auto.
  - intros [bo [Hb [Hv [Hf Hq]]]].
    exists (p_bounds p, p_fixed p). split.
    + apply set_bounds_ok. unfold opt_bounds; simpl. rewrite Hf, Hq.
      destruct bo; split; auto; discriminate.
    + apply bind_ok. exists (p_val p). split.
      * apply set_val_ok; auto. unfold opt_bounds; simpl. rewrite Hf, Hq. destruct bo; auto.
      * destruct p; reflexivity.
Qed.

Lemma nth01 (l : list pyval) : List.length l = 2%nat -> exists a b, l = [a; b].
Proof. destruct l as [|a [|b [|c l]]]; simpl; try discriminate; eauto. Qed.

Lemma set_bounds_err b er :
  documented_bounds b -> set_bounds b = Err er -> er = ValueError.
Proof.
  intros Hd. destruct Hd as [s|x|l Hl|l Hl]; simpl.
  - destruct (String.eqb s "fixed"); [discriminate|intros H; inversion H; auto].
  - intros H; inversion H; auto.
  - destruct (Nat.eqb_spec (List.length l) 2) as [El|El]; simpl; [|intros H; inversion H; auto].
    destruct (nth01 _ El) as [a [b ->]]. simpl.
    destruct (Hl a (or_introl eq_refl)) as [A1 A2].
    destruct (Hl b (or_intror (or_introl eq_refl))) as [B1 B2].
    destruct a; simpl; try congruence; destruct b; simpl; try congruence.
    destruct (num_gtb _ _); congruence.
  - destruct (Nat.eqb_spec (List.length l) 2) as [El|El]; simpl; [|intros H; inversion H; auto].
    destruct (nth01 _ El) as [a [b ->]]. simpl.
    destruct (Hl a (or_introl eq_refl)) as [A1 A2].
    destruct (Hl b (or_intror (or_introl eq_refl))) as [B1 B2].
    destruct a; simpl; try congruence; destruct b; simpl; try congruence.
    destruct (num_gtb _ _); congruence.
Qed.

Lemma param_init_err e v b er :
  documented_val v -> documented_bounds b ->
  param_init e v b = Err er -> er = ValueError \/ (er = OverflowError /\ exists s, v = PStr s).
Proof.
  intros Hv Hb. unfold param_init. destruct (set_bounds b) as [bf|e1] eqn:E; simpl.
  - unfold set_val. destruct Hv as [x|s|l|l|x]; simpl.
    + destruct (check_range _ _ _) eqn:C; simpl; [discriminate|].
      intros H; inversion H; subst. left; eapply check_range_err; eauto.
    + destruct (sample_val _ _ _ s) eqn:S; simpl.
      * destruct (check_range _ _ _) eqn:C; simpl; [discriminate|].
        intros H; inversion H; subst. left; eapply check_range_err; eauto.
      * intros H; inversion H; subst. apply sample_val_err in S.
        destruct S; [left; auto|right; split; eauto].
    + intros H; inversion H; auto.
    + intros H; inversion H; auto.
    + intros H; inversion H; auto.
  - intros H; inversion H; subst. left. eapply set_bounds_err; eauto.
Qed.

(** ** The invariant over histories *)

Definition inv (s : store) : Prop := forall l, (l < st_next s)%nat -> within_bounds (st_cell s l).

Lemma check_range_within v lo hi w :
  check_range (lo, hi) false v = Ok w ->
  ~ nlt w (shift lo (- / 100000)) /\ ~ nlt (shift hi (/ 100000)) w.
Proof. intros H. apply check_range_ok in H. simpl in H. destruct H as [-> H]; auto. Qed.

Lemma set_val_within e lo hi v x :
  set_val e (lo, hi) false v = Ok x ->
  ~ nlt x (shift lo (- / 100000)) /\ ~ nlt (shift hi (/ 100000)) x.
Proof.
  unfold set_val. destruct v; try (simpl; discriminate); simpl.
  - apply check_range_within.
  - intros H. apply bind_ok in H. destruct H as [y [_ H]]. eapply check_range_within; eauto.
Qed.

Lemma param_init_within e v b p : param_init e v b = Ok p -> within_bounds p.
Proof.
  unfold param_init. intros H. apply bind_ok in H. destruct H as [bf [Hb H]].
  apply bind_ok in H. destruct H as [x [Hx H]]. inversion H; subst.
  apply set_bounds_ok in Hb. destruct Hb as [Hb _].
  destruct bf as [[lo hi] f]. unfold within_bounds, opt_bounds in *; simpl in *.
  intros -> _ _ _. inversion Hb; subst.
  split; auto. eapply set_val_within; eauto.
Qed.

Lemma param_set_val_within e p v q :
  within_bounds p -> param_set_val e p v = Ok q -> p_val p <> NaN -> within_bounds q.
Proof.
  unfold param_set_val. intros W H NN. apply bind_ok in H. destruct H as [x [Hx H]].
  inversion H; subst. destruct p as [pv [lo hi] f]. unfold within_bounds in *; simpl in *.
  intros -> H1 H2 H3. split; [apply W; auto|]. eapply set_val_within; eauto.
Qed.

(** The bounds half of the invariant does not depend on the value. *)
Definition within2 (p : param) : Prop :=
  p_fixed p = false ->
  ~ nlt (snd (p_bounds p)) (fst (p_bounds p)) /\
  ~ nlt (p_val p) (shift (fst (p_bounds p)) (- / 100000)) /\
  ~ nlt (shift (snd (p_bounds p)) (/ 100000)) (p_val p).

Lemma within2_within p : within2 p -> within_bounds p.
Proof. unfold within2, within_bounds; intros H; intros; auto. Qed.

Lemma param_init_within2 e v b p : param_init e v b = Ok p -> within2 p.
Proof.
  unfold param_init. intros H. apply bind_ok in H. destruct H as [bf [Hb H]].
  apply bind_ok in H. destruct H as [x [Hx H]]. inversion H; subst.
  apply set_bounds_ok in Hb. destruct Hb as [Hb _].
  destruct bf as [[lo hi] f]. unfold within2, opt_bounds in *; simpl in *.
  intros ->. inversion Hb; subst.
  split; auto. eapply set_val_within; eauto.
Qed.

Lemma param_set_val_within2 e p v q : within2 p -> param_set_val e p v = Ok q -> within2 q.
Proof.
  unfold param_set_val. intros W H. apply bind_ok in H. destruct H as [x [Hx H]].
  inversion H; subst. destruct p as [pv [lo hi] f]. unfold within2 in *; simpl in *.
  intros ->. split; [apply W; auto|]. eapply set_val_within; eauto.
Qed.

Definition inv2 (s : store) : Prop := forall l, (l < st_next s)%nat -> within2 (st_cell s l).

Lemma step_inv s o : inv2 s -> inv2 (step s o).
Proof.
  intros I. destruct o as [e v b|e l v|d r|r]; simpl.
  - destruct (param_init e v b) as [p|] eqn:E; auto.
    intros l Hl; simpl in *. destruct (Nat.eqb_spec l (st_next s)).
    + eapply param_init_within2; eauto.
    + apply I; lia.
  - destruct (Nat.ltb_spec l (st_next s)); auto.
    destruct (param_set_val e (st_cell s l) v) as [p|] eqn:E; auto.
    intros l' Hl; simpl in *. destruct (Nat.eqb_spec l' l); subst.
    + eapply param_set_val_within2; eauto.
    + apply I; auto.
  - destruct (Nat.ltb_spec d (st_next s)); simpl; auto.
    destruct (Nat.ltb_spec r (st_next s)); auto.
    intros l' Hl; simpl in *. destruct (Nat.eqb_spec l' d); subst; [|apply I; auto].
    unfold param_set. specialize (I r H0). destruct (st_cell s r); exact I.
  - destruct (Nat.ltb_spec r (st_next s)); auto.
    intros l' Hl; simpl in *. destruct (Nat.eqb_spec l' (st_next s)); subst; [|apply I; lia].
    unfold param_set. specialize (I r H). destruct (st_cell s r); exact I.
Qed.

Lemma run_inv ops s : inv2 s -> inv2 (run ops s).
Proof.
  unfold run. revert s. induction ops as [|o ops IH]; simpl; auto.
  intros s I. apply IH, step_inv, I.
Qed.

Lemma history_within ops l :
  (l < st_next (run ops empty_store))%nat -> within_bounds (st_cell (run ops empty_store) l).
Proof.
  intros H. apply within2_within. apply run_inv; auto.
  intros l' Hl'; simpl in Hl'. lia.
Qed.

(** ** Sampling *)

Lemma sample_in_bounds e lo hi :
  lo <= hi -> root e = None -> lo <= uniform e lo hi <= hi ->
  exists p, param_init e (PStr "sample") (PList [PNum (Fin lo); PNum (Fin hi)]) = Ok p /\
            exists x, p_val p = Fin x /\ lo <= x <= hi.
Proof.
  intros Hlh Hr Hu. unfold param_init, set_bounds. simpl. unfold num_gtb; simpl.
  replace (Rltb hi lo) with false by (symmetry; apply Rltb_false; lra). simpl.
  unfold sample_val; simpl. unfold bcast; rewrite Hr.
  unfold check_range, num_gtb, tol; simpl.
  replace (Rltb (uniform e lo hi) (lo + - / 100000)) with false by (symmetry; apply Rltb_false; lra).
  replace (Rltb (hi + / 100000) (uniform e lo hi)) with false by (symmetry; apply Rltb_false; lra).
  simpl. eexists; split; [reflexivity|]. simpl. eauto.
Qed.

Lemma log_sample_in_bounds e lo hi :
  0 < lo -> lo <= hi -> root e = None -> ln lo <= uniform e (ln lo) (ln hi) <= ln hi ->
  exists p, param_init e (PStr "log_sample") (PList [PNum (Fin lo); PNum (Fin hi)]) = Ok p /\
            exists x, p_val p = Fin x /\ lo <= x <= hi.
Proof.
  intros Hp Hlh Hr Hu.
  assert (B : lo <= exp (uniform e (ln lo) (ln hi)) <= hi).
  { set (u := uniform e (ln lo) (ln hi)) in *. split.
    - rewrite <- (exp_ln lo) by lra. destruct (proj1 Hu) as [H|H]; [left; apply exp_increasing; auto|right; congruence].
    - rewrite <- (exp_ln hi) at 1 by lra. destruct (proj2 Hu) as [H|H]; [left; apply exp_increasing; auto|right; congruence]. }
  exists (mkParam (Fin (exp (uniform e (ln lo) (ln hi)))) (Fin lo, Fin hi) false).
  split; [|simpl; eauto].
  apply param_init_ok; auto. exists (Some (Fin lo, Fin hi)). simpl.
  assert (L : forall a b, nlt (Fin a) (Fin b) -> a < b) by (intros a b H; inversion H; auto).
  split; [|split; [|auto]].
  - constructor; [constructor|]. intros H; apply L in H; lra.
  - eapply vm_log_sample; eauto; try lra.
    split; intros H; apply L in H; lra.
Qed.

(** In MPI mode every rank ends with the value rank 0 drew. *)
Lemma sample_mpi_consistent e b s p r :
  root e = Some r -> param_init e (PStr s) b = Ok p -> p_val p = r.
Proof.
  intros Hr. unfold param_init. intros H. apply bind_ok in H. destruct H as [bf [Hb H]].
  apply bind_ok in H. destruct H as [x [Hx H]]. inversion H; subst; simpl.
  unfold set_val in Hx. apply bind_ok in Hx. destruct Hx as [y [Hy Hx]].
  apply check_range_ok in Hx. destruct Hx as [-> _].
  unfold sample_val in Hy. destruct (snd bf); [discriminate|].
  unfold bcast in Hy. rewrite Hr in Hy.
  destruct (String.eqb s "sample").
  - destruct (np_uniform _ _ _); simpl in Hy; [inversion Hy; auto|discriminate].
  - destruct (String.eqb s "log_sample"); [|discriminate].
    destruct (np_uniform _ _ _); simpl in Hy; [inversion Hy; auto|discriminate].
Qed.
