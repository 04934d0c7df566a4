(** Variance losses of matrix-shaped responses: predictions and targets of shape (b, r), one
    variance per batch element. *)
From Coq Require Import Lia Lra.
From Verif Require Import Base NdModel NdFacts RSum LinAlgModel LinAlgSpec LinAlgFacts GPModel NoiseModel MuyGPSModel
  GPSpec GPTheorems NoiseProofs LossModel LossSpec LossProofs KernelModel KernelCases NamedModel ChassisModel.
Local Open Scope R_scope.

Definition pick (d j : nat) : nat := if (d =? 1)%nat then O else j.

Lemma bop_mat_vec {A B C} (f : A -> B -> C) x y b r c m : shape x = [b; r] -> shape y = [c] ->
  (r = c /\ m = r) \/ (r = 1%nat /\ m = c) \/ (c = 1%nat /\ m = r) ->
  exists t, bop f x y = Ok t /\ shape t = [b; m] /\
    forall i j, (i < b)%nat -> (j < m)%nat -> at_ t [i; j] = f (at_ x [i; pick r j]) (at_ y [pick c j]).
Proof.
  intros Sx Sy Hm. unfold bop. rewrite Sx, Sy. unfold bshape. cbn [rev app brev option_map].
  replace (if (r =? c)%nat then Some (r :: [b]) else if (r =? 1)%nat then Some (c :: [b]) else if (c =? 1)%nat then Some (r :: [b]) else None)
    with (Some (m :: [b])).
  - cbn [option_map rev app]. eexists. split; [reflexivity|]. split; [reflexivity|].
    intros i j Hi Hj. cbn [at_]. unfold bidx. cbn [rev app bidx_rev]. unfold pick.
    replace (if (b =? 1)%nat then O else i) with i by (destruct (Nat.eqb_spec b 1); lia). reflexivity.
  - destruct (Nat.eqb_spec r c) as [E|E], (Nat.eqb_spec r 1) as [E1|E1], (Nat.eqb_spec c 1) as [E2|E2];
      destruct Hm as [[H1 H2]|[[H1 H2]|[H1 H2]]]; subst; try reflexivity; try lia.
Qed.

Lemma bop_mat_vec_err {A B C} (f : A -> B -> C) x y b r c : shape x = [b; r] -> shape y = [c] ->
  r <> c -> r <> 1%nat -> c <> 1%nat -> bop f x y = Err ValueError.
Proof.
  intros Sx Sy H1 H2 H3. unfold bop. rewrite Sx, Sy. unfold bshape. cbn [rev app brev option_map].
  destruct (Nat.eqb_spec r c), (Nat.eqb_spec r 1), (Nat.eqb_spec c 1); try lia. reflexivity.
Qed.

(** Lool: every shape for which numpy broadcasts. *)
Lemma lool_mat ls sld p t v b r c m s : shape p = [b; r] -> shape t = [b; r] -> shape v = [c] ->
  (r = c /\ m = r) \/ (r = 1%nat /\ m = c) \/ (c = 1%nat /\ m = r) ->
  lool_fn ls sld p t v s = Ok (rsum b (fun i => rsum m (fun j =>
    lool_entry (at_ p [i; pick r j] - at_ t [i; pick r j]) (s * at_ v [pick c j])))).
Proof.
  intros Sp St Sv Hm. unfold lool_fn, lool_fn_unscaled. cbn [ndmap shape]. rewrite Sv.
  destruct (bop_same Rminus p t) as (d & -> & Sd & Ad); [congruence|]. cbn [bind].
  destruct (bop_mat_vec Rdiv (ndmap (fun x => x ^ 2) d) (ndmap (Rmult s) v) b r c m) as (q & Eq & Sq & Aq);
    [cbn [ndmap shape]; congruence|cbn [ndmap shape]; congruence|exact Hm|].
  unfold ndmap in Eq |- *. cbn [shape] in Eq |- *. rewrite Eq. cbn [bind].
  assert (Hm' : (m = c /\ m = m) \/ (m = 1%nat /\ m = c) \/ (c = 1%nat /\ m = m)) by lia.
  destruct (bop_mat_vec Rplus q (ndmap ln (ndmap (Rmult s) v)) b m c m Sq) as (u & Eu & Su & Au);
    [cbn [ndmap shape]; congruence|exact Hm'|].
  unfold ndmap in Eu. cbn [shape] in Eu. rewrite Eu. cbn [bind]. f_equal.
  rewrite nd_sum_total, Su. cbn [total]. apply rsum_ext. intros i Hi. apply rsum_ext. intros j Hj.
  rewrite Au by auto. assert (Hj' : (pick m j < m)%nat) by (unfold pick; destruct (Nat.eqb_spec m 1); lia).
  rewrite Aq by auto.
  assert (Ej : pick m j = j) by (unfold pick; destruct (Nat.eqb_spec m 1); lia).
  rewrite Ej. unfold lool_entry, ndmap. cbn [at_].
  assert (Hr : (pick r j < r)%nat) by (unfold pick; destruct (Nat.eqb_spec r 1); lia).
  rewrite Ad by (rewrite Sp; apply inb2; auto). reflexivity.
Qed.

Lemma looph_mat p t v b r c m s dl : shape p = [b; r] -> shape t = [b; r] -> shape v = [c] ->
  (r = c /\ m = r) \/ (r = 1%nat /\ m = c) \/ (c = 1%nat /\ m = r) ->
  looph_fn p t v s dl = Ok (rsum b (fun i => rsum m (fun j =>
    looph_entry dl (at_ t [i; pick r j] - at_ p [i; pick r j]) (s * at_ v [pick c j])))).
Proof.
  intros Sp St Sv Hm. unfold looph_fn, looph_fn_unscaled. cbn [ndmap shape]. rewrite Sv.
  destruct (bop_same Rminus t p) as (d & -> & Sd & Ad); [congruence|]. cbn [bind].
  destruct (bop_mat_vec Rdiv (ndmap (fun x => x ^ 2) d) (ndmap (Rmult (dl ^ 2)) (ndmap (Rmult s) v)) b r c m) as (q & Eq & Sq & Aq);
    [cbn [ndmap shape]; congruence|cbn [ndmap shape]; congruence|exact Hm|].
  unfold ndmap in Eq |- *. cbn [shape at_] in Eq |- *. rewrite Eq. cbn [bind].
  assert (Hm' : (m = c /\ m = m) \/ (m = 1%nat /\ m = c) \/ (c = 1%nat /\ m = m)) by lia.
  destruct (bop_mat_vec Rplus (ndmap (fun x => 2 * dl ^ 2 * (sqrt (1 + x) - 1)) q) (ndmap ln (ndmap (Rmult s) v)) b m c m) as (u & Eu & Su & Au);
    [cbn [ndmap shape]; congruence|cbn [ndmap shape]; congruence|exact Hm'|].
  unfold ndmap in Eu. cbn [shape at_] in Eu. rewrite Eu. cbn [bind]. f_equal.
  rewrite nd_sum_total, Su. cbn [total]. apply rsum_ext. intros i Hi. apply rsum_ext. intros j Hj.
  rewrite Au by auto. unfold ndmap. cbn [at_]. assert (Hj' : (pick m j < m)%nat) by (unfold pick; destruct (Nat.eqb_spec m 1); lia).
  rewrite Aq by auto.
  assert (Ej : pick m j = j) by (unfold pick; destruct (Nat.eqb_spec m 1); lia).
  rewrite Ej. unfold looph_entry, ndmap. cbn [at_].
  assert (Hr : (pick r j < r)%nat) by (unfold pick; destruct (Nat.eqb_spec r 1); lia).
  rewrite Ad by (rewrite St; apply inb2; auto). reflexivity.
Qed.

Lemma lool_mat_err ls sld p t v b r c s dl : shape p = [b; r] -> shape t = [b; r] -> shape v = [c] ->
  r <> c -> r <> 1%nat -> c <> 1%nat ->
  lool_fn ls sld p t v s = Err ValueError /\ looph_fn p t v s dl = Err ValueError.
Proof.
  intros Sp St Sv H1 H2 H3. split.
  - unfold lool_fn, lool_fn_unscaled. cbn [ndmap shape]. rewrite Sv.
    destruct (bop_same Rminus p t) as (d & -> & Sd & Ad); [congruence|]. cbn [bind].
    rewrite (bop_mat_vec_err Rdiv _ _ b r c); auto; cbn [ndmap shape]; congruence.
  - unfold looph_fn, looph_fn_unscaled. cbn [ndmap shape]. rewrite Sv.
    destruct (bop_same Rminus t p) as (d & -> & Sd & Ad); [congruence|]. cbn [bind].
    rewrite (bop_mat_vec_err Rdiv _ _ b r c); auto; cbn [ndmap shape]; congruence.
Qed.

(** Variances with an axis for the responses, as documented. *)
Lemma lool_mat_var ls sld p t v b r s dl : shape p = [b; r] -> shape t = [b; r] -> shape v = [b; r] ->
  (exists e, lool_fn ls sld p t v s = Err e) /\ looph_fn p t v s dl = Err ValueError.
Proof.
  intros Sp St Sv. split.
  - unfold lool_fn, lool_fn_unscaled. cbn [ndmap shape]. rewrite Sv.
    destruct (bop_same Rminus p t) as (d & -> & Sd & Ad); [congruence|]. cbn [bind].
    unfold np_solve. cbn [ndmap shape]. rewrite Sv. unfold atleast_3d. rewrite Sd, Sp. cbn.
    rewrite !andb_false_r. cbn. eauto.
  - unfold looph_fn, looph_fn_unscaled. cbn [ndmap shape]. rewrite Sv. reflexivity.
Qed.

Lemma rsum_const n c : rsum n (fun _ => c) = INR n * c.
Proof. induction n as [|n IH]; [cbn; ring|]. rewrite S_INR. cbn [rsum]. rewrite IH. ring. Qed.

(** One response with its own axis: every error is paired with every variance. *)
Lemma lool_column ls sld p t v b s : shape p = [b; 1%nat] -> shape t = [b; 1%nat] -> shape v = [b] ->
  lool_fn ls sld p t v s =
  Ok (rsum b (fun i => rsum b (fun j => lool_entry (at_ p [i; O] - at_ t [i; O]) (s * at_ v [j])))).
Proof.
  intros Sp St Sv. rewrite (lool_mat ls sld p t v b 1 b b s Sp St Sv) by auto. f_equal.
  apply rsum_ext. intros i Hi. apply rsum_ext. intros j Hj. cbn [pick Nat.eqb].
  unfold pick. cbn [Nat.eqb]. replace (if (b =? 1)%nat then O else j) with j by (destruct (Nat.eqb_spec b 1); lia). reflexivity.
Qed.
Lemma looph_column p t v b s dl : shape p = [b; 1%nat] -> shape t = [b; 1%nat] -> shape v = [b] ->
  looph_fn p t v s dl =
  Ok (rsum b (fun i => rsum b (fun j => looph_entry dl (at_ t [i; O] - at_ p [i; O]) (s * at_ v [j])))).
Proof.
  intros Sp St Sv. rewrite (looph_mat p t v b 1 b b s dl Sp St Sv) by auto. f_equal.
  apply rsum_ext. intros i Hi. apply rsum_ext. intros j Hj. cbn [pick Nat.eqb].
  unfold pick. cbn [Nat.eqb]. replace (if (b =? 1)%nat then O else j) with j by (destruct (Nat.eqb_spec b 1); lia). reflexivity.
Qed.

Lemma lool_column_equal ls sld p t v b s w : shape p = [b; 1%nat] -> shape t = [b; 1%nat] -> shape v = [b] ->
  (forall j, (j < b)%nat -> at_ v [j] = w) ->
  lool_fn ls sld p t v s = Ok (INR b * rsum b (fun i => lool_entry (at_ p [i; O] - at_ t [i; O]) (s * at_ v [i]))).
Proof.
  intros Sp St Sv Hw. rewrite (lool_column ls sld p t v b s Sp St Sv). f_equal. rewrite <- rsum_scal. apply rsum_ext. intros i Hi.
  rewrite (rsum_ext b _ (fun _ => lool_entry (at_ p [i; O] - at_ t [i; O]) (s * at_ v [i]))).
  - apply rsum_const.
  - intros j Hj. rewrite !Hw by auto. reflexivity.
Qed.

Lemma lool_square ls sld p t v b s : shape p = [b; b] -> shape t = [b; b] -> shape v = [b] ->
  lool_fn ls sld p t v s =
  Ok (rsum b (fun i => rsum b (fun j => lool_entry (at_ p [i; j] - at_ t [i; j]) (s * at_ v [j])))).
Proof.
  intros Sp St Sv. rewrite (lool_mat ls sld p t v b b b b s Sp St Sv) by auto. f_equal.
  apply rsum_ext. intros i Hi. apply rsum_ext. intros j Hj.
  assert (E : pick b j = j) by (unfold pick; destruct (Nat.eqb_spec b 1); lia). rewrite E. reflexivity.
Qed.

(** A single batch element: the documented value. *)
Lemma lool_one ls sld p t v r s dl : shape p = [1%nat; r] -> shape t = [1%nat; r] -> shape v = [1%nat] ->
  lool_fn ls sld p t v s = Ok (rsum 1 (fun i => rsum r (fun j => lool_entry (at_ p [i; j] - at_ t [i; j]) (s * at_ v [i])))) /\
  looph_fn p t v s dl = Ok (rsum 1 (fun i => rsum r (fun j => looph_entry dl (at_ t [i; j] - at_ p [i; j]) (s * at_ v [i])))).
Proof.
  intros Sp St Sv. split.
  - rewrite (lool_mat ls sld p t v 1 r 1 r s Sp St Sv) by auto. f_equal.
    apply rsum_ext. intros i Hi. apply rsum_ext. intros j Hj.
    assert (E : pick r j = j) by (unfold pick; destruct (Nat.eqb_spec r 1); lia). rewrite E.
    replace i with O by lia. reflexivity.
  - rewrite (looph_mat p t v 1 r 1 r s dl Sp St Sv) by auto. f_equal.
    apply rsum_ext. intros i Hi. apply rsum_ext. intros j Hj.
    assert (E : pick r j = j) by (unfold pick; destruct (Nat.eqb_spec r 1); lia). rewrite E.
    replace i with O by lia. reflexivity.
Qed.

(** Two candidates ranked the wrong way round. *)
Definition col (x y : R) : nd R := mkNd [2; 1]%nat (fun idx => match idx with [O; _] => x | _ => y end).
Definition vec (x y : R) : nd R := mkNd [2%nat] (fun idx => match idx with [O] => x | _ => y end).
Lemma lool_ranking ls sld : exists pa va pb vb t A B,
  shape pa = [2; 1]%nat /\ shape pb = [2; 1]%nat /\ shape t = [2; 1]%nat /\ shape va = [2%nat] /\ shape vb = [2%nat] /\
  (forall j, (j < 2)%nat -> 0 < at_ va [j] /\ 0 < at_ vb [j]) /\
  lool_fn ls sld pa t va 1 = Ok A /\ lool_fn ls sld pb t vb 1 = Ok B /\
  rsum 2 (fun i => lool_entry (at_ pa [i; O] - at_ t [i; O]) (1 * at_ va [i])) <
  rsum 2 (fun i => lool_entry (at_ pb [i; O] - at_ t [i; O]) (1 * at_ vb [i])) /\ B < A.
Proof.
  assert (L1 : ln 1 = 0) by exact ln_1.
  assert (L4 : ln 4 + ln (1/4) = 0).
  { rewrite <- ln_mult by lra. replace (4 * (1/4)) with 1 by lra. exact ln_1. }
  exists (col 2 0), (vec 4 (1/4)), (col 1 1), (vec 1 1), (col 0 0). eexists. eexists.
  repeat (split; [reflexivity|]). split; [intros j Hj; destruct j as [|[|]]; cbn; lra|].
  split; [apply (lool_column ls sld _ _ _ 2); reflexivity|]. split; [apply (lool_column ls sld _ _ _ 2); reflexivity|].
  unfold lool_entry. cbn [rsum col vec at_]. rewrite !Rmult_1_l.
  split; field_simplify; lra.
Qed.

(** The objective handed to the optimizers. *)
Section Obj.
Variable ls : lsolver.
Hypothesis Hls : exact_solver ls.
Variable sld : nat -> mat -> R * R.
Variable eps : R.
Variables (gamma : R -> R) (kv : R -> R -> R).

Lemma kout_nil : shape kernel_Kout = [].
Proof. exact (proj1 kernel_Kout_value). Qed.

Lemma obj_many s F l draws P C T B kw Kin Kcross b n r :
  l = Lool \/ l = Looph ->
  call_kernel gamma kv s F P kw = Ok Kin -> call_kernel gamma kv s F C kw = Ok Kcross ->
  noise_fits (gp_noise (gp_bound s F)) b n ->
  shape Kin = [b; n; n] -> shape Kcross = [b; n] -> shape T = [b; n; r] -> shape B = [b; r] -> r <> n ->
  (2 <= b)%nat -> (2 <= r)%nat -> b <> r ->
  exists e, obj_fn ls sld eps gamma kv s F l [] None draws P C T B kw = Err e.
Proof.
  intros Hl EP EC Hn SK SC ST SB Hrn Hb Hr Hbr. unfold obj_fn. rewrite EP, EC. cbn [bind].
  assert (Hw : loss_wrapper l = VarWrapper) by (destruct Hl; subst; reflexivity).
  unfold predict_and_loss. rewrite Hw.
  destruct (gp_posterior_mean ls (gp_bound s F) Kin Kcross T (dget kw "noise")) as [p|e] eqn:Ep; cbn [bind]; [|eauto].
  destruct (scale_value ls s F draws Kin T) as [sc|e] eqn:Es; cbn [bind]; [|eauto].
  destruct (gp_opt_variance ls (gp_bound s F) Kin Kcross (dget kw "noise")) as [v|e] eqn:Ev; cbn [bind]; [|eauto].
  destruct (gp_mean_inv ls Hls _ _ _ _ _ b n [r] _ Hn SK SC ST (no_coincidence_1 r n Hrn) Ep) as [Sp _].
  destruct (gp_var_inv ls Hls _ _ _ _ _ b n _ Hn SK SC kout_nil Ev) as [Sv _].
  exists ValueError.
  destruct (lool_mat_err ls sld p B v b r b sc 3 Sp SB Sv) as [E1 E2]; [lia..|].
  destruct Hl; subst l; cbn [loss_call clash existsb has_key dget]; [rewrite E1|rewrite E2]; reflexivity.
Qed.

Lemma obj_column s F draws P C T B kw Kin Kcross b n v :
  call_kernel gamma kv s F P kw = Ok Kin -> call_kernel gamma kv s F C kw = Ok Kcross ->
  noise_fits (gp_noise (gp_bound s F)) b n ->
  shape Kin = [b; n; n] -> shape Kcross = [b; n] -> shape T = [b; n; 1%nat] -> shape B = [b; 1%nat] -> n <> 1%nat ->
  obj_fn ls sld eps gamma kv s F Lool [] None draws P C T B kw = Ok v ->
  exists p var sc,
    gp_posterior_mean ls (gp_bound s F) Kin Kcross T (dget kw "noise") = Ok p /\
    gp_opt_variance ls (gp_bound s F) Kin Kcross (dget kw "noise") = Ok var /\
    scale_value ls s F draws Kin T = Ok sc /\
    shape p = [b; 1%nat] /\ shape var = [b] /\
    v = - rsum b (fun i => rsum b (fun j => lool_entry (at_ p [i; O] - at_ B [i; O]) (sc * at_ var [j]))).
Proof.
  intros EP EC Hn SK SC ST SB Hn1. unfold obj_fn. rewrite EP, EC. cbn [bind].
  unfold predict_and_loss. cbn [loss_wrapper].
  destruct (gp_posterior_mean ls (gp_bound s F) Kin Kcross T (dget kw "noise")) as [p|e] eqn:Ep; cbn [bind]; [|discriminate].
  destruct (scale_value ls s F draws Kin T) as [sc|e] eqn:Es; cbn [bind]; [|discriminate].
  destruct (gp_opt_variance ls (gp_bound s F) Kin Kcross (dget kw "noise")) as [var|e] eqn:Ev; cbn [bind]; [|discriminate].
  destruct (gp_mean_inv ls Hls _ _ _ _ _ b n [1%nat] _ Hn SK SC ST (no_coincidence_1 1 n ltac:(lia)) Ep) as [Sp _].
  destruct (gp_var_inv ls Hls _ _ _ _ _ b n _ Hn SK SC kout_nil Ev) as [Sv _].
  cbn [loss_call clash existsb has_key dget orb]. rewrite (lool_column ls sld p B var b sc Sp SB Sv). cbn [bind].
  intros H. injection H as <-. exists p, var, sc. auto 10.
Qed.
End Obj.
